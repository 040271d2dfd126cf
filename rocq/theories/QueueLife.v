(** Every step preserves the life-cycle invariant. *)
From Coq Require Import List Bool PeanoNat Lia.
From Verif Require Import QueueModel QueueSpec QueueProofs.
Import ListNotations.

Lemma cl_same : forall (l : list cpc) (c r : nat) p,
  (exists pc, nth_error l c = Some pc /\ cown c pc = Some (r, p)) <->
  (exists pc, nth_error l c = Some pc /\ cown c pc = Some (r, p)).
Proof. tauto. Qed.

Lemma cl_silent : forall l c pc0 pc1,
  nth_error l c = Some pc0 -> cown c pc0 = None -> cown c pc1 = None ->
  forall c' r p,
  (exists pc, nth_error (upd c pc1 l) c' = Some pc /\ cown c' pc = Some (r, p)) <->
  (exists pc, nth_error l c' = Some pc /\ cown c' pc = Some (r, p)).
Proof.
  intros l c pc0 pc1 H N0 N1 c' r p.
  rewrite (nth_upd _ _ _ _ _ _ H). destruct (Nat.eqb_spec c c').
  - subst. split; intros (pc & A & B); congruence.
  - tauto.
Qed.

Lemma rq_same : forall l r q q', nth_error l r = Some q -> core q' = core q ->
  forall r', option_map core (nth_error (upd r q' l) r') = option_map core (nth_error l r').
Proof.
  intros. rewrite (nth_upd _ _ _ _ _ _ H). destruct (Nat.eqb_spec r r'); auto.
  subst. rewrite H. cbn. congruence.
Qed.

Lemma rq_other : forall l r q q', nth_error l r = Some q ->
  forall r', r' <> r -> option_map core (nth_error (upd r q' l) r') = option_map core (nth_error l r').
Proof.
  intros. rewrite (nth_upd _ _ _ _ _ _ H). destruct (Nat.eqb_spec r r'); auto. congruence.
Qed.

Lemma next_phase_one : forall b b', next_phase OneQ b b' = true.
Proof. reflexivity. Qed.

Ltac silent :=
  lazymatch goal with
  | L : linv ?k ?s |- linv ?k ?s' =>
    eapply (linv_silent k s s' L); cbn;
    [ reflexivity | reflexivity
    | first [ reflexivity | match goal with H : st_wpc s = _ |- _ => rewrite H; reflexivity end ]
    | first [ intros; apply cl_same
            | eapply cl_silent; [eassumption | reflexivity | reflexivity] ]
    | first [ reflexivity | intros; reflexivity
            | eapply rq_same; [eassumption | reflexivity] ]
    | intros; reflexivity
    | first [ intros; assumption | intros ->; intros; reflexivity ] ]
  end.

(** Ownership of the request a step deals with. *)
Lemma own_other_w : forall s s' r,
  st_clients s' = st_clients s -> (forall w r', r' <> r -> In r' (queue w s') <-> In r' (queue w s)) ->
  (forall r' x, wown (st_wpc s) = Some (r', x) -> r' = r) ->
  (forall r' x, wown (st_wpc s') = Some (r', x) -> r' = r) ->
  forall r' x, r' <> r -> own s' r' x <-> own s r' x.
Proof.
  intros s s' r C Q W W' r' x N. split; intros X; destruct X as [p X | c pc p X Y | w X].
  - exfalso; eauto.
  - rewrite C in X. eapply own_c; eauto.
  - eapply own_q. apply Q; eauto.
  - exfalso; eauto.
  - rewrite <- C in X. eapply own_c; eauto.
  - eapply own_q. apply Q; eauto.
Qed.

Lemma own_other_c : forall s s' r c pc0 pc1,
  nth_error (st_clients s) c = Some pc0 -> st_clients s' = upd c pc1 (st_clients s) ->
  (forall w r', r' <> r -> In r' (queue w s') <-> In r' (queue w s)) ->
  st_wpc s' = st_wpc s ->
  (forall r' x, cown c pc0 = Some (r', x) -> r' = r) ->
  (forall r' x, cown c pc1 = Some (r', x) -> r' = r) ->
  forall r' x, r' <> r -> own s' r' x <-> own s r' x.
Proof.
  intros s s' r c pc0 pc1 H C Q W C0 C1 r' x N. split; intros X; destruct X as [p X | c' pc p X Y | w X].
  - apply own_w. congruence.
  - rewrite C, (nth_upd _ _ _ _ _ _ H) in X. destruct (Nat.eqb_spec c c') as [E|E].
    + injection X as <-. subst c'. exfalso; eauto.
    + eapply own_c; eauto.
  - eapply own_q. apply Q; eauto.
  - apply own_w. congruence.
  - destruct (Nat.eqb_spec c c') as [E|E].
    + subst c'. rewrite H in X; injection X as <-. exfalso; eauto.
    + eapply (own_c s' r' c' pc); auto. rewrite C, (nth_upd _ _ _ _ _ _ H).
      apply Nat.eqb_neq in E. rewrite E; auto.
  - eapply own_q. apply Q; eauto.
Qed.

(** The owner changed from the worker to the worker. *)
Lemma own_this_w : forall k s s' r p0 p',
  linv k s -> loc r (st_log s) = p0 ->
  st_clients s' = st_clients s ->
  (forall c pc, cown c pc = Some (r, p0) -> False) ->
  (forall w, ~ In r (queue w s')) ->
  (forall r' x, wown (st_wpc s') = Some (r', x) -> r' = r -> x = p') ->
  forall x, own s' r x -> x = p'.
Proof.
  intros k s s' r p0 p' L E C N Q W x X. destruct X as [p X | c pc p X Y | w X].
  - eauto.
  - rewrite C in X. assert (loc r (st_log s) = p) by (apply (l_own k s L); eapply own_c; eauto).
    exfalso. eapply N. rewrite <- E, H. eauto.
  - exfalso. eapply Q; eauto.
Qed.

Lemma own_this_c : forall k s s' r c pc0 pc1 p0 p',
  linv k s -> loc r (st_log s) = p0 ->
  nth_error (st_clients s) c = Some pc0 -> st_clients s' = upd c pc1 (st_clients s) ->
  st_wpc s' = st_wpc s ->
  (forall c' pc, c' <> c -> cown c' pc = Some (r, p0) -> False) ->
  (forall pc, wown pc = Some (r, p0) -> False) ->
  (forall w, In r (queue w s') -> p' = PQueued) ->
  (forall x, cown c pc1 = Some (r, x) -> x = p') ->
  forall x, own s' r x -> x = p'.
Proof.
  intros k s s' r c pc0 pc1 p0 p' L E H C W N NW Q P x X. destruct X as [p X | c' pc p X Y | w X].
  - exfalso. rewrite W in X. assert (loc r (st_log s) = p) by (apply (l_own k s L); eapply own_w; eauto).
    eapply NW. rewrite <- E, H0; eauto.
  - rewrite C, (nth_upd _ _ _ _ _ _ H) in X. destruct (Nat.eqb_spec c c') as [F|F].
    + injection X as <-. subst c'. auto.
    + exfalso. assert (loc r (st_log s) = p) by (apply (l_own k s L); eapply own_c; eauto).
      eapply N. 2:{ rewrite <- E, H0; eauto. } auto.
  - symmetry; eauto.
Qed.

Lemma not_queued : forall k s r p w, linv k s -> loc r (st_log s) = p -> p <> PQueued -> ~ In r (queue w s).
Proof. intros k s r p w L E N X. apply N. rewrite <- E. apply (l_own k s L). eapply own_q; eauto. Qed.

Ltac disc := intros; cbn in *; try discriminate; try congruence.

Lemma queue_set_same : forall w l s, queue w (set_queue w l s) = l.
Proof. destruct w; reflexivity. Qed.
Lemma queue_set_other : forall w w' l s, w <> w' -> queue w' (set_queue w l s) = queue w' s.
Proof. destruct w, w'; intros; try congruence; reflexivity. Qed.

(** Everything that [complete_step] leaves alone. *)
Lemma complete_frame : forall r q st b s,
  st_rq (complete_step r q st b s) = st_rq s /\ st_wq (complete_step r q st b s) = st_wq s /\
  st_wpc (complete_step r q st b s) = st_wpc s /\ st_clients (complete_step r q st b s) = st_clients s /\
  st_phase (complete_step r q st b s) = st_phase s /\ st_sem (complete_step r q st b s) = st_sem s /\
  st_ts (complete_step r q st b s) = st_ts s.
Proof.
  intros. destruct st; cbn; try (destruct (q_handler q)); try destruct (notify_all _ _); cbn; auto 10.
Qed.

Definition stage_event (q : req) (r : nat) (st : stage) (b : bool) (s : state) : event :=
  match st with
  | SDone => EDone r
  | SHandler => if q_handler q then EHandler r b else ENoHandler r
  | SNotify => ENotify r (snd (notify_all (q_waiters q) (st_sws s)))
  | SRelease => ERelease r
  | SReady => EReady r
  end.

Definition stage_req (q : req) (st : stage) : req :=
  match st with
  | SDone => set_state DONE q
  | SRelease => set_file false q
  | SReady => set_state READY2DIE q
  | _ => q
  end.

Lemma upd_id : forall A i (x : A) l, nth_error l i = Some x -> upd i x l = l.
Proof. induction i; destruct l; cbn; intros; try discriminate; f_equal; auto; congruence. Qed.

Lemma complete_log : forall r q st b s,
  st_log (complete_step r q st b s) = stage_event q r st b s :: st_log s.
Proof.
  intros. destruct st; cbn; try (destruct (q_handler q)); try destruct (notify_all _ _); reflexivity.
Qed.

Lemma complete_reqs : forall r q st b s, nth_error (st_reqs s) r = Some q ->
  st_reqs (complete_step r q st b s) = upd r (stage_req q st) (st_reqs s).
Proof.
  intros. destruct st; cbn; try (destruct (q_handler q)); try destruct (notify_all _ _); cbn;
    try reflexivity; rewrite upd_id; auto.
Qed.

Definition after_stage (o : option nat) (st : stage) : ph :=
  match next_stage st with Some st' => PFin o st' | None => PEnd o end.

Lemma adv_stage : forall q r st o s,
  adv (stage_event q r st (is_none o) s) (PFin o st) = after_stage o st.
Proof.
  intros. destruct st; cbn; auto. destruct (q_handler q); cbn; auto. rewrite eqb_reflx; auto.
Qed.

Lemma about_stage : forall q r st b s, about r (stage_event q r st b s) = true.
Proof. intros. destruct st; cbn; try destruct (q_handler q); cbn; apply Nat.eqb_refl. Qed.

Lemma fields_stage : forall q o st, fields (PFin o st) q -> fields (after_stage o st) (stage_req q st).
Proof. intros q o []; cbn; intuition. Qed.

Lemma op_stage : forall q st, q_op (stage_req q st) = q_op q.
Proof. intros q []; reflexivity. Qed.

Lemma after_stage_ok : forall o st, after_stage o st <> PNone /\ after_stage o st <> PBad /\ after_stage o st <> PQueued.
Proof. intros o []; cbn; repeat split; discriminate. Qed.

Lemma own_worker_fin : forall k s r st, linv k s -> st_wpc s = WFin r st -> loc r (st_log s) = PFin None st.
Proof. intros. apply (l_own k s H). apply own_w. rewrite H0; reflexivity. Qed.

(** A completion step of the worker. *)
Lemma linv_fin_w : forall k s r q st wp,
  linv k s -> st_wpc s = WFin r st -> nth_error (st_reqs s) r = Some q ->
  wown wp = match next_stage st with Some st' => Some (r, PFin None st') | None => None end ->
  linv k (set_wpc wp (complete_step r q st true s)).
Proof.
  intros k s r q st wp L HW HQ Hwp.
  assert (E : loc r (st_log s) = PFin None st) by (eapply own_worker_fin; eauto).
  destruct (complete_frame r q st true s) as (F1 & F2 & F3 & F4 & F5 & F6 & F7).
  destruct (after_stage_ok None st) as (A1 & A2 & A3).
  set (s' := set_wpc wp (complete_step r q st true s)).
  assert (QQ : forall w, queue w s' = queue w s) by (intros []; cbn; auto).
  eapply (linv_move k s s' (stage_event q r st true s) r (after_stage None st) L).
  - apply complete_log.
  - apply about_stage.
  - rewrite E. apply (adv_stage q r st None).
  - auto.
  - auto.
  - apply own_other_w.
    + exact F4.
    + intros. rewrite QQ. tauto.
    + intros r' x X. rewrite HW in X; cbn in X; congruence.
    + intros r' x X. cbn in X. rewrite Hwp in X. destruct (next_stage st); congruence.
  - eapply own_this_w with (p0 := PFin None st); eauto.
    + intros c pc X. destruct pc; cbn in X; congruence.
    + intros w. rewrite QQ. eapply not_queued; eauto. discriminate.
    + intros r' x X. cbn in X. rewrite Hwp in X. unfold after_stage. destruct (next_stage st); congruence.
  - intros A. apply own_w. cbn. rewrite Hwp. unfold after_stage in *. destruct (next_stage st); auto. destruct A.
  - cbn. rewrite (complete_reqs _ _ _ _ _ HQ). eapply rq_other; eauto.
  - exists (stage_req q st). cbn. rewrite (complete_reqs _ _ _ _ _ HQ).
    split; [eapply nth_upd_eq; eauto|]. split.
    + apply fields_stage. rewrite <- E. eapply (l_fld k s L); eauto.
    + intros q0 H0. rewrite HQ in H0. injection H0 as <-. apply op_stage.
  - intros w X. rewrite QQ in X. exfalso. eapply not_queued; eauto. discriminate.
  - intros w r' N X. rewrite QQ in X; auto.
  - intros w. rewrite QQ. apply (l_nodup k s L).
  - intros K. cbn. rewrite F1, F5. apply (l_one k s L K).
Qed.

Lemma own_client_fin : forall k s c r st rest all acc, linv k s ->
  nth_error (st_clients s) c = Some (CFin r st rest all acc) -> loc r (st_log s) = PFin (Some c) st.
Proof. intros. apply (l_own k s H). eapply own_c; eauto. Qed.

Lemma linv_fin_c : forall k s c r q st rest all acc pc,
  linv k s -> nth_error (st_clients s) c = Some (CFin r st rest all acc) -> nth_error (st_reqs s) r = Some q ->
  cown c pc = match next_stage st with Some st' => Some (r, PFin (Some c) st') | None => None end ->
  linv k (set_client c pc (complete_step r q st false s)).
Proof.
  intros k s c r q st rest all acc pc L HC HQ Hpc.
  assert (E : loc r (st_log s) = PFin (Some c) st) by (eapply own_client_fin; eauto).
  destruct (complete_frame r q st false s) as (F1 & F2 & F3 & F4 & F5 & F6 & F7).
  destruct (after_stage_ok (Some c) st) as (A1 & A2 & A3).
  set (s' := set_client c pc (complete_step r q st false s)).
  assert (QQ : forall w, queue w s' = queue w s) by (intros []; cbn; auto).
  assert (CC : st_clients s' = upd c pc (st_clients s)) by (cbn; rewrite F4; auto).
  eapply (linv_move k s s' (stage_event q r st false s) r (after_stage (Some c) st) L).
  - apply complete_log.
  - apply about_stage.
  - rewrite E. apply (adv_stage q r st (Some c)).
  - auto.
  - auto.
  - eapply own_other_c; eauto.
    + intros. rewrite QQ. tauto.
    + intros r' x X. cbn in X; congruence.
    + intros r' x X. rewrite Hpc in X. destruct (next_stage st); congruence.
  - eapply own_this_c with (p0 := PFin (Some c) st); eauto.
    + intros c' pc' N X. destruct pc'; cbn in X; congruence.
    + intros w X. destruct w; cbn in X; congruence.
    + intros w X. rewrite QQ in X. exfalso. eapply not_queued; eauto. discriminate.
    + intros x X. rewrite Hpc in X. unfold after_stage. destruct (next_stage st); congruence.
  - intros A. apply own_c with (c := c) (pc := pc).
    + rewrite CC. eapply nth_upd_eq; eauto.
    + rewrite Hpc. unfold after_stage in *. destruct (next_stage st); auto. destruct A.
  - cbn. rewrite (complete_reqs _ _ _ _ _ HQ). eapply rq_other; eauto.
  - exists (stage_req q st). cbn. rewrite (complete_reqs _ _ _ _ _ HQ).
    split; [eapply nth_upd_eq; eauto|]. split.
    + apply fields_stage. rewrite <- E. eapply (l_fld k s L); eauto.
    + intros q0 H0. rewrite HQ in H0. injection H0 as <-. apply op_stage.
  - intros w X. rewrite QQ in X. exfalso. eapply not_queued; eauto. discriminate.
  - intros w r' N X. rewrite QQ in X; auto.
  - intros w. rewrite QQ. apply (l_nodup k s L).
  - intros K. cbn. rewrite F1, F5. apply (l_one k s L K).
Qed.

Lemma queued_at : forall k s r q w, linv k s -> In r (queue w s) -> nth_error (st_reqs s) r = Some q ->
  w = which k (q_op q) /\ loc r (st_log s) = PQueued.
Proof.
  intros k s r q w L I Q. destruct (l_dir k s L _ _ I) as (q' & A & B). split; [congruence|].
  apply (l_own k s L). eapply own_q; eauto.
Qed.

Lemma bool_neq : forall a b : bool, a <> b -> b = negb a.
Proof. intros [] []; intros; try congruence; reflexivity. Qed.

Lemma linv_wstep : forall k s s', linv k s -> wstep k s s' -> linv k s'.
Proof.
  intros k s s' L T. destruct T.
  - (* wait *) silent.
  - (* pop *)
    assert (I : In r (queue (st_phase s) s)) by (rewrite H0; left; auto).
    assert (E : loc r (st_log s) = PQueued) by (apply (l_own k s L); eapply own_q; eauto).
    pose proof (l_nodup k s L (st_phase s)) as ND. rewrite H0 in ND. inversion ND as [|? ? N1 N2]; subst.
    set (s' := emit _ _).
    assert (Q1 : queue (st_phase s) s' = rest) by (unfold s'; destruct (st_phase s); reflexivity).
    assert (Q2 : forall w, w <> st_phase s -> queue w s' = queue w s)
      by (intros w; unfold s'; destruct (st_phase s), w; intros; try congruence; reflexivity).
    assert (CL : st_clients s' = st_clients s) by (unfold s'; destruct (st_phase s); reflexivity).
    assert (RQ : st_reqs s' = st_reqs s) by (unfold s'; destruct (st_phase s); reflexivity).
    assert (NI : forall w, ~ In r (queue w s')).
    { intros w. destruct (bool_dec w (st_phase s)) as [->|N].
      - rewrite Q1; auto.
      - rewrite Q2 by auto. intros X. destruct (l_dir k s L _ _ I) as (q & A & B).
        destruct (queued_at k s r q w L X A) as (C & _). congruence. }
    eapply (linv_move k s s' (EPop r) r PServe L).
    + unfold s'; destruct (st_phase s); reflexivity.
    + cbn; apply Nat.eqb_refl.
    + rewrite E; reflexivity.
    + discriminate.
    + discriminate.
    + apply own_other_w; auto.
      * intros w r' N. destruct (bool_dec w (st_phase s)) as [->|N'].
        -- rewrite Q1, H0. cbn. intuition congruence.
        -- rewrite Q2 by auto. tauto.
      * intros r' x X. rewrite H in X. discriminate.
      * intros r' x X. cbn in X. congruence.
    + eapply own_this_w with (p0 := PQueued); eauto.
      * intros c pc X. destruct pc; cbn in X; congruence.
      * intros r' x X. cbn in X. congruence.
    + intros _. apply own_w. reflexivity.
    + rewrite RQ. auto.
    + destruct (l_dir k s L _ _ I) as (q & A & B). exists q. rewrite RQ. split; auto. split.
      * pose proof (l_fld k s L _ _ A) as F. rewrite E in F. exact F.
      * intros; congruence.
    + intros w X. exfalso; eapply NI; eauto.
    + intros w r' N X. destruct (bool_dec w (st_phase s)) as [->|N'].
      * rewrite Q1 in X. rewrite H0. right; auto.
      * rewrite Q2 in X; auto.
    + intros w. destruct (bool_dec w (st_phase s)) as [->|N'].
      * rewrite Q1; auto.
      * rewrite Q2 by auto. apply (l_nodup k s L).
    + intros ->. destruct (l_one _ s L eq_refl) as (O1 & O2). split.
      * unfold s'. rewrite O2. cbn. auto.
      * reflexivity.
  - (* empty *) silent.
  - (* serve *)
    assert (E : loc r (st_log s) = PServe) by (apply (l_own k s L); apply own_w; rewrite H; reflexivity).
    set (s' := emit _ _).
    assert (QQ : forall w, queue w s' = queue w s) by (intros []; reflexivity).
    eapply (linv_move k s s' (EServe r ok) r (PFin None SDone) L).
    + reflexivity.
    + cbn; apply Nat.eqb_refl.
    + rewrite E; reflexivity.
    + discriminate.
    + discriminate.
    + apply own_other_w.
      * reflexivity.
      * intros; rewrite QQ; tauto.
      * intros r' x X. rewrite H in X. cbn in X. congruence.
      * intros r' x X. cbn in X. congruence.
    + eapply own_this_w with (p0 := PServe); eauto.
      * intros c pc X. destruct pc; cbn in X; congruence.
      * intros w. rewrite QQ. eapply not_queued; eauto. discriminate.
      * intros r' x X. cbn in X. congruence.
    + intros _. apply own_w. reflexivity.
    + cbn. eapply rq_other; eauto.
    + eexists. cbn. split; [eapply nth_upd_eq; eauto|]. split.
      * pose proof (l_fld k s L _ _ H0) as F. rewrite E in F. exact F.
      * intros; cbn; congruence.
    + intros w X. rewrite QQ in X. exfalso. eapply not_queued; eauto. discriminate.
    + intros w r' N X. rewrite QQ in X; auto.
    + intros w. rewrite QQ. apply (l_nodup k s L).
    + apply (l_one k s L).
  - (* fin *) eapply linv_fin_w; eauto. rewrite H1. reflexivity.
  - (* ready *) eapply linv_fin_w; eauto.
  - silent.
  - silent.
  - silent.
  - silent.
  - silent.
  - silent.
  - silent.
Qed.

Lemma linv_start : forall k c s s', linv k s -> start_op k c s s' -> linv k s'.
Proof.
  intros k c s s' L T. destruct T; try silent.
  - (* create *)
    set (r := length (st_reqs s)).
    assert (R0 : nth_error (st_reqs s) r = None) by (apply nth_error_None; unfold r; lia).
    assert (E : loc r (st_log s) = PNone) by (apply (l_dom k s L); auto).
    set (s' := emit _ _).
    assert (QQ : forall w, queue w s' = queue w s) by (intros []; reflexivity).
    assert (NA : forall r' q, nth_error (st_reqs s) r' = Some q -> r' <> r) by (intros r' q X ->; congruence).
    eapply (linv_move k s s' (ECreate c r) r (PPush c) L).
    + reflexivity.
    + cbn; apply Nat.eqb_refl.
    + rewrite E; reflexivity.
    + discriminate.
    + discriminate.
    + eapply own_other_c with (pc0 := CIdle) (pc1 := CPush r); eauto; disc.
      intros; rewrite QQ; tauto.
    + intros x X. destruct X as [p X | c' pc p X Y | w X].
      * exfalso. assert (loc r (st_log s) = p) by (apply (l_own k s L); apply own_w; auto).
        cbn in X. destruct (st_wpc s); cbn in X; congruence.
      * cbn in X. rewrite (nth_upd _ _ _ _ _ _ H) in X. destruct (Nat.eqb_spec c c') as [F|F].
        -- injection X as <-. cbn in Y. congruence.
        -- exfalso. assert (loc r (st_log s) = p) by (apply (l_own k s L); eapply own_c; eauto).
           destruct pc; cbn in Y; congruence.
      * exfalso. rewrite QQ in X. eapply not_queued; eauto. discriminate.
    + intros _. eapply own_c; [cbn; eapply nth_upd_eq; eauto | reflexivity].
    + intros r' N. cbn. rewrite nth_snoc. apply Nat.eqb_neq in N. fold r. rewrite N. auto.
    + exists (new_req op handler). cbn. rewrite nth_snoc. fold r. rewrite Nat.eqb_refl.
      split; auto. split; [cbn; auto|]. intros; congruence.
    + intros w X. rewrite QQ in X. exfalso. eapply not_queued; eauto. discriminate.
    + intros w r' N X. rewrite QQ in X; auto.
    + intros w. rewrite QQ. apply (l_nodup k s L).
    + apply (l_one k s L).
Qed.

Lemma linv_cstep : forall k c s s', linv k s -> cstep k c s s' -> linv k s'.
Proof.
  intros k c s s' L T. destruct T; try silent.
  - (* push *)
    assert (E : loc r (st_log s) = PPush c) by (apply (l_own k s L); eapply own_c; eauto).
    set (w0 := which k (q_op q)) in *. set (s' := emit _ _).
    assert (Q1 : queue w0 s' = queue w0 s ++ [r]) by (unfold s'; destruct w0; reflexivity).
    assert (Q2 : forall w, w <> w0 -> queue w s' = queue w s)
      by (intros w; unfold s'; destruct w0, w; intros; try congruence; reflexivity).
    assert (CL : st_clients s' = upd c (CSignal r) (st_clients s)) by (unfold s'; destruct w0; reflexivity).
    assert (WP : st_wpc s' = st_wpc s) by (unfold s'; destruct w0; reflexivity).
    assert (RQ : st_reqs s' = st_reqs s) by (unfold s'; destruct w0; reflexivity).
    assert (NQ : forall w, ~ In r (queue w s)) by (intros; eapply not_queued; eauto; discriminate).
    eapply (linv_move k s s' (EPush r) r PQueued L).
    + unfold s'; destruct w0; reflexivity.
    + cbn; apply Nat.eqb_refl.
    + rewrite E; reflexivity.
    + discriminate.
    + discriminate.
    + eapply own_other_c; eauto; disc.
      destruct (bool_dec w w0) as [->|N'].
      * rewrite Q1, in_app_iff. cbn. intuition congruence.
      * rewrite Q2 by auto. tauto.
    + eapply own_this_c with (p0 := PPush c); eauto.
      * intros c' pc' N X. destruct pc'; cbn in X; congruence.
      * intros w X. destruct w; cbn in X; congruence.
      * disc.
    + intros _. apply own_q with (w := w0). rewrite Q1. apply in_or_app; right; left; auto.
    + rewrite RQ; auto.
    + exists q. rewrite RQ. split; auto. split.
      * pose proof (l_fld k s L _ _ H0) as F. rewrite E in F. exact F.
      * intros; congruence.
    + intros w X. exists q. rewrite RQ. split; auto.
      destruct (bool_dec w w0) as [->|N']; auto. rewrite Q2 in X by auto. exfalso; eapply NQ; eauto.
    + intros w r' N X. destruct (bool_dec w w0) as [->|N'].
      * rewrite Q1, in_app_iff in X. cbn in X. intuition congruence.
      * rewrite Q2 in X; auto.
    + intros w. destruct (bool_dec w w0) as [->|N'].
      * rewrite Q1.
        pose proof (l_nodup k s L w0) as ND. specialize (NQ w0). revert ND NQ.
        generalize (queue w0 s). induction l as [|x l IH]; cbn; intros ND NQ; constructor; auto.
        -- inversion ND; subst. rewrite in_app_iff. cbn. intuition.
        -- inversion ND; subst. apply IH; auto.
      * rewrite Q2 by auto. apply (l_nodup k s L).
    + intros ->. destruct (l_one _ s L eq_refl). split.
      * unfold s'; cbn; auto.
      * unfold s'; destruct w0; auto.
  - (* erase *)
    set (w0 := which k (q_op q)) in *. set (s' := emit _ _).
    assert (I : In r (queue w0 s)) by (rewrite H1; apply in_elt).
    assert (E : loc r (st_log s) = PQueued) by (apply (l_own k s L); eapply own_q; eauto).
    pose proof (l_nodup k s L w0) as ND. rewrite H1 in ND.
    assert (N2 : ~ In r (l1 ++ l2)) by (apply NoDup_remove_2; auto).
    assert (N3 : NoDup (l1 ++ l2)) by (eapply NoDup_remove_1; eauto).
    assert (Q1 : queue w0 s' = l1 ++ l2) by (unfold s'; destruct w0; reflexivity).
    assert (Q2 : forall w, w <> w0 -> queue w s' = queue w s)
      by (intros w; unfold s'; destruct w0, w; intros; try congruence; reflexivity).
    assert (CL : st_clients s' = upd c (CTake r rest all acc) (st_clients s)) by (unfold s'; destruct w0; reflexivity).
    assert (WP : st_wpc s' = st_wpc s) by (unfold s'; destruct w0; reflexivity).
    assert (RQ : st_reqs s' = st_reqs s) by (unfold s'; destruct w0; reflexivity).
    assert (NI : forall w, ~ In r (queue w s')).
    { intros w. destruct (bool_dec w w0) as [->|N].
      - rewrite Q1; auto.
      - rewrite Q2 by auto. intros X. destruct (queued_at k s r q w L X H0) as (C & _). exact (N C). }
    eapply (linv_move k s s' (EErase c r) r (PTake c) L).
    + unfold s'; destruct w0; reflexivity.
    + cbn; apply Nat.eqb_refl.
    + rewrite E; reflexivity.
    + discriminate.
    + discriminate.
    + eapply own_other_c; eauto; disc.
      destruct (bool_dec w w0) as [->|N'].
      * rewrite Q1, H1, !in_app_iff. cbn. intuition congruence.
      * rewrite Q2 by auto. tauto.
    + eapply own_this_c with (p0 := PQueued); eauto.
      * intros c' pc' N X. destruct pc'; cbn in X; congruence.
      * intros w X. destruct w; cbn in X; congruence.
      * intros w X. exfalso; eapply NI; eauto.
      * disc.
    + intros _. eapply own_c; [rewrite CL; eapply nth_upd_eq; eauto | reflexivity].
    + rewrite RQ; auto.
    + exists q. rewrite RQ. split; auto. split.
      * pose proof (l_fld k s L _ _ H0) as F. rewrite E in F. exact F.
      * intros; congruence.
    + intros w X. exfalso; eapply NI; eauto.
    + intros w r' N X. destruct (bool_dec w w0) as [->|N'].
      * rewrite Q1 in X. rewrite H1. rewrite in_app_iff in *. cbn. tauto.
      * rewrite Q2 in X; auto.
    + intros w. destruct (bool_dec w w0) as [->|N'].
      * rewrite Q1; auto.
      * rewrite Q2 by auto. apply (l_nodup k s L).
    + intros ->. destruct (l_one _ s L eq_refl). split.
      * unfold s'; cbn; auto.
      * unfold s'; destruct w0; auto.
  - (* take *)
    assert (E : loc r (st_log s) = PTake c) by (apply (l_own k s L); eapply own_c; eauto).
    set (s' := emit _ _).
    assert (QQ : forall w, queue w s' = queue w s) by (intros []; reflexivity).
    destruct (nth_error (st_reqs s) r) as [q|] eqn:HQ.
    2:{ apply (l_dom k s L) in HQ. congruence. }
    eapply (linv_move k s s' (ETook c r) r (PFin (Some c) SDone) L).
    + reflexivity.
    + cbn; apply Nat.eqb_refl.
    + rewrite E; cbn. rewrite Nat.eqb_refl; reflexivity.
    + discriminate.
    + discriminate.
    + eapply own_other_c; [eassumption | reflexivity | | reflexivity | disc | disc].
      intros; rewrite QQ; tauto.
    + eapply own_this_c with (p0 := PTake c); [eassumption|eassumption|eassumption|reflexivity|reflexivity| | | |].
      * intros c' pc' N X. destruct pc'; cbn in X; congruence.
      * intros w X. destruct w; cbn in X; congruence.
      * intros w X. rewrite QQ in X. exfalso. eapply not_queued; eauto. discriminate.
      * disc.
    + intros _. eapply own_c; [cbn; eapply nth_upd_eq; eauto | reflexivity].
    + auto.
    + exists q. split; auto. split.
      * pose proof (l_fld k s L _ _ HQ) as F. rewrite E in F. exact F.
      * intros; congruence.
    + intros w X. rewrite QQ in X. exfalso. eapply not_queued; eauto. discriminate.
    + intros w r' N X. rewrite QQ in X; auto.
    + intros w. rewrite QQ. apply (l_nodup k s L).
    + apply (l_one k s L).
  - (* fin *) eapply linv_fin_c; eauto. rewrite H1; reflexivity.
  - (* ready *) eapply linv_fin_c; eauto.
Qed.

Lemma linv_step : forall k s s', linv k s -> step k s s' -> linv k s'.
Proof.
  intros k s s' L T. destruct T; eauto using linv_wstep, linv_start, linv_cstep.
Qed.

Lemma steps_ind_inv : forall k (P : state -> Prop) s s',
  (forall a b, P a -> step k a b -> P b) -> P s -> steps k s s' -> P s'.
Proof. intros k P s s' H H0 T. induction T; eauto. Qed.

Lemma linv_reachable : forall k n s, qreachable k n s -> linv k s.
Proof. intros k n s H. eapply steps_ind_inv; eauto using linv_init. apply linv_step. Qed.
