(** Lifetime of requests and files: every action keeps the invariant. *)
From Coq Require Import List Bool PeanoNat Lia Permutation.
From Verif Require Import LifeModel LifeSpec LifeProofs LifeProofs2 LifeMain.
Import ListNotations.

Ltac fields := cbn [st_objs st_files st_queue st_kern st_servers st_clients st_log st_running
  set_client set_server set_objs set_files set_queue set_kern set_running emit].
Ltac fields_in H := cbn [st_objs st_files st_queue st_kern st_servers st_clients st_log st_running
  set_client set_server set_objs set_files set_queue set_kern set_running emit] in H.

Lemma can1_upd : forall s s' c cl, can1 s -> nth_error (st_clients s) c <> None ->
  st_clients s' = upd c cl (st_clients s) ->
  (forall r, cl_pc cl = CCan1 r -> In r (cl_hold cl)) -> can1 s'.
Proof.
  unfold can1. intros s s' c cl H N E K cl0 r I P. rewrite E in I.
  apply In_nth_error in I. destruct I as (j & I). apply nth_upd in I.
  destruct I as [(E1 & E2 & _) | (E1 & E2)].
  - subst. auto.
  - eapply H; eauto. eapply nth_error_In; eauto.
Qed.

Lemma can1_same : forall s s', can1 s -> st_clients s' = st_clients s -> can1 s'.
Proof. unfold can1. intros. rewrite H0 in H1. eauto. Qed.

Lemma can1_given : forall s s' h st r, can1 s ->
  clients_given h st r (st_clients s) (st_clients s') -> can1 s'.
Proof.
  intros s s' h st r H G cl x I P. apply clients_given_refs in G. destruct G as (_ & _ & G).
  apply In_nth_error in I. destruct I as (j & I). destruct (G _ _ I) as (cl0 & N & E & S').
  apply S'. eapply H; [eapply nth_error_In; eauto | congruence].
Qed.

(** A cancel() that is about to return true, or has only the end of set_to() to
    do, has completed its request. *)
Definition ends (p : cpc) : option nat :=
  match p with
  | CCanFin r StTail => Some r
  | CCanEnd r (Some true) => Some r
  | _ => None
  end.
Definition is_ready (os : list obj) (r : nat) : Prop :=
  exists o, nth_error os r = Some o /\ o_state o = READY2DIE.
Definition ended (s : state) : Prop :=
  forall cl r, In cl (st_clients s) -> ends (cl_pc cl) = Some r -> is_ready (st_objs s) r.

Lemma prim_ready : forall k g g' r, core g -> prim k g g' -> is_ready (g_objs g) r -> is_ready (g_objs g') r.
Proof.
  intros k g g' r C P (o & N & R).
  assert (U : forall i o1 o2 os, nth_error os i = Some o1 -> nth_error os r = Some o ->
      (i = r -> o_state o2 = READY2DIE) -> is_ready (upd i o2 os) r).
  { intros i o1 o2 os A B K. destruct (Nat.eq_dec i r).
    - subst. exists o2. split; [eapply nth_upd_eq; eauto | auto].
    - exists o. rewrite nth_upd_neq by auto. auto. }
  destruct P; cbn [g_objs] in *; try (exists o; auto; fail);
    try (eapply U; eauto; intros ->; assert (o0 = o) by congruence; subst; simpl; auto; fail).
  - eapply U; eauto. intros ->. assert (o0 = o) by congruence. subst.
    destruct (co_ok _ C r PWait o (or_introl eq_refl) N) as (X & _). congruence.
  - exists o. split; auto. rewrite nth_error_app1; auto. apply nth_error_Some. congruence.
Qed.

Lemma prims_ready : forall k g g' r, core g -> prims k g g' -> is_ready (g_objs g) r -> is_ready (g_objs g') r.
Proof.
  intros k g g' r C P. induction P as [|g g1 g2 P IH Q]; auto. intros X.
  eapply prim_ready; [eapply prims_core; [exact C | exact P] | exact Q | auto].
Qed.

Lemma ended_upd : forall k s s' c cl, core (ghost_of s) -> prims k (ghost_of s) (ghost_of s') -> ended s ->
  st_clients s' = upd c cl (st_clients s) ->
  (forall r, ends (cl_pc cl) = Some r -> is_ready (st_objs s') r) -> ended s'.
Proof.
  unfold ended. intros k s s' c cl C P H E K cl0 r I X. rewrite E in I.
  apply In_nth_error in I. destruct I as (j & I). apply nth_upd in I.
  destruct I as [(E1 & E2 & _) | (E1 & E2)].
  - subst. auto.
  - apply nth_error_In in E2. apply (prims_ready k _ _ r C P). simpl. eauto.
Qed.

Lemma ended_same : forall k s s', core (ghost_of s) -> prims k (ghost_of s) (ghost_of s') -> ended s ->
  st_clients s' = st_clients s -> ended s'.
Proof.
  unfold ended. intros k s s' C P H E cl r I X. rewrite E in I.
  apply (prims_ready k _ _ r C P). simpl. eauto.
Qed.

Lemma ended_given : forall k s s' h st r, core (ghost_of s) -> prims k (ghost_of s) (ghost_of s') -> ended s ->
  clients_given h st r (st_clients s) (st_clients s') -> ended s'.
Proof.
  intros k s s' h st r C P H G cl x I X. apply clients_given_refs in G. destruct G as (_ & _ & G).
  apply In_nth_error in I. destruct I as (j & I). destruct (G _ _ I) as (cl0 & N & E & _).
  rewrite E in X. apply nth_error_In in N. apply (prims_ready k _ _ x C P). simpl. eauto.
Qed.

Definition inv2 (s : state) : Prop := inv s /\ ended s.
Definition moves (k : kind) (s s' : state) : Prop :=
  prims k (ghost_of s) (ghost_of s') /\ can1 s' /\ ended s'.

Lemma moves_split : forall k s s', prims k (ghost_of s) (ghost_of s') ->
  (prims k (ghost_of s) (ghost_of s') -> can1 s' /\ ended s') -> moves k s s'.
Proof. intros. split; auto. Qed.

Lemma cl_upd : forall k s s' c cl, inv2 s ->
  nth_error (st_clients s) c <> None ->
  st_clients s' = upd c cl (st_clients s) ->
  (forall r, cl_pc cl = CCan1 r -> In r (cl_hold cl)) ->
  (forall r, ends (cl_pc cl) = Some r -> is_ready (st_objs s') r) ->
  prims k (ghost_of s) (ghost_of s') -> can1 s' /\ ended s'.
Proof.
  intros k s s' c cl ((C & D) & DN). intros. split; [eapply can1_upd; eauto | eapply ended_upd; eauto].
Qed.

(** One reference less; what remains are the references of the new state. *)
Lemma dec_moves : forall k s s1 s' r,
  core (ghost_of s) -> Permutation (refs s) (r :: refs s') -> Permutation (own s) (own s') ->
  (forall t, st_objs t = st_objs s -> st_files t = st_files s -> st_log t = st_log s ->
     frame s t -> True) ->
  dec r s = Some s1 ->
  st_objs s' = st_objs s1 -> st_files s' = st_files s1 -> st_log s' = st_log s1 ->
  prims k (ghost_of s) (ghost_of s').
Proof.
  intros k s s1 s' r C PR PO _ D E1 E2 E3.
  assert (P1 : prims k (ghost_of s) (abs s (r :: refs s') (own s'))) by (apply perm_prims; auto).
  pose proof (prims_core_abs _ _ _ _ _ _ _ C P1) as C1.
  destruct (dec_prims k _ _ _ _ _ C1 (fun p I => own_refs s' r p I) D) as (P2 & _).
  eapply prims_trans; [exact P1|]. unfold ghost_of, abs. rewrite E1, E2, E3. exact P2.
Qed.

Lemma client_moves : forall k c h s s', inv2 s -> client_step k c h s = Some s' -> moves k s s'.
Proof.
  intros k c h s s' J E. pose proof J as ((C & D) & DN). unfold client_step in E.
  destruct (nth_error (st_clients s) c) as [cl|] eqn:N; try discriminate.
  destruct (upd_split _ _ _ _ N) as (l1 & l2 & L & U).
  assert (NN : nth_error (st_clients s) c <> None) by congruence.
  destruct (cl_pc cl) eqn:PC; try discriminate.
  - (* CNew *)
    assert (PO : Permutation (own s) ((r, PNew) :: waiting (st_queue s) ++ waiting (st_kern s) ++
              flat_map server_own (st_servers s) ++ flat_map client_own (l1 ++ l2))).
    { pcount2. unfold own. rewrite L. cnt1. unfold client_own at 2. rewrite PC. cnt. }
    assert (P0 : prims k (ghost_of s) (abs s (refs s) ((r, PNew) :: waiting (st_queue s) ++
        waiting (st_kern s) ++ flat_map server_own (st_servers s) ++ flat_map client_own (l1 ++ l2))))
      by (apply perm_prims; auto).
    pose proof (prims_core_abs _ _ _ _ _ _ _ C P0) as C0.
    destruct (st_running s) eqn:RUN.
    + destruct (inc r s) as [s1|] eqn:I; try discriminate. injection E as E. subst s'.
      destruct (push_prims k _ _ _ _ _ C0 I) as (P1 & F).
      destruct F as (F1 & F2 & F3 & F4 & F5).
      apply moves_split.
      * eapply prims_trans; [exact P0|]. eapply prims_trans; [exact P1|].
        apply perm_prims; auto.
        -- pcount. unfold refs. fields. rewrite F1, F2, F3, F4, U, L. cnt1. rewrite PC. cnt.
        -- pcount2. unfold own. fields. rewrite F1, F2, F3, F4, U. cnt.
      * intros PP. eapply cl_upd; [exact J | exact NN | fields; rewrite F4; reflexivity | simpl; discriminate | simpl; discriminate | exact PP].
    + destruct k; try discriminate.
      destruct (nth_error (st_objs s) r) as [o|] eqn:NO; try discriminate.
      destruct (dec r s) as [s1|] eqn:DE; try discriminate. injection E as E. subst s'.
      assert (I : In r (refs s)) by (eapply (co_sub _ C0); simpl; left; reflexivity).
      destruct (touch_live _ _ _ _ C0 I) as (o' & NO' & FR & T).
      assert (o' = o) by congruence. subst o'.
      assert (CN : o_cnt o = 1).
      { rewrite (co_cnt _ C _ _ NO). apply (co_new _ C0). simpl. auto. }
      unfold dec in DE. rewrite T in DE. cbn [o_cnt with_cnt] in DE.
      rewrite CN in DE. simpl in DE. injection DE as DE. subst s1.
      set (s2 := emit (EReject c r (o_fid o)) _).
      apply moves_split.
      * assert (PR : Permutation (refs s) (r :: refs s2)).
        { pcount. unfold refs, s2. fields. rewrite U, L. cnt1. rewrite PC. cnt. }
        assert (PO2 : Permutation (own s) ((r, PNew) :: own s2)).
        { pcount2. unfold own, s2. fields. rewrite U, L. cnt1. unfold client_own at 2. rewrite PC. cnt. }
        assert (Q1 : prims Serving (ghost_of s) (abs s (r :: refs s2) ((r, PNew) :: own s2)))
          by (apply perm_prims; auto).
        eapply prims_trans; [exact Q1|].
        assert (Q2 : prim Serving (abs s (r :: refs s2) ((r, PNew) :: own s2))
           (mk_g (upd r (with_freed (with_cnt (o_cnt o - 1) o)) (st_objs s)) (st_files s)
                 (EReject c r (o_fid o) :: EFree r (o_state o) :: st_log s) (refs s2) (own s2))).
        { apply P_reject; auto. rewrite CN. auto. }
        rewrite CN in Q2. apply prims_one in Q2. exact Q2.
      * intros PP. eapply cl_upd; [exact J | exact NN | reflexivity | simpl; discriminate | simpl; discriminate | exact PP].
  - (* CCan1 *)
    destruct (inc r s) as [s1|] eqn:I; try discriminate. injection E as E. subst s'.
    assert (HI : In r (cl_hold cl)) by (eapply D; eauto; eapply nth_error_In; eauto).
    assert (IR : In r (refs s)).
    { eapply in_refs_client; eauto. unfold client_refs. rewrite in_app_iff. auto. }
    destruct (inc_prims k _ _ _ _ _ C IR (held_not_new _ _ _ _ C N HI) I) as (P1 & F1 & F2 & F3 & F4 & F5).
    apply moves_split.
    + eapply prims_trans; [exact P1|]. apply perm_prims; auto.
      * pcount. unfold refs. fields. rewrite F1, F2, F3, F4, U, L. cnt1. rewrite PC. cnt.
      * pcount2. unfold own. fields. rewrite F1, F2, F3, F4, U, L. cnt1. unfold client_own at 2. rewrite PC. cnt.
    + intros PP. eapply cl_upd; [exact J | exact NN | fields; rewrite F4; reflexivity | simpl; discriminate | simpl; discriminate | exact PP].
  - (* CCan2 *)
    assert (IR : In r (refs s)).
    { eapply in_refs_client; eauto. unfold client_refs. rewrite in_app_iff, PC. simpl. auto. }
    destruct (touch_live _ _ _ _ C IR) as (o & NO & FR & T). rewrite T in E.
    destruct (o_file o) as [f|] eqn:OF.
    + destruct (touch_file f s) as [[x s2]|] eqn:TF; try discriminate. injection E as E. subst s'.
      destruct (use_prims k s s2 r o f x (refs s) (own s) NO OF TF) as (P1 & F1 & F2 & F3 & F4 & F5).
      apply moves_split.
      * eapply prims_trans; [exact P1|]. apply perm_prims; auto.
        -- pcount. unfold refs. fields. rewrite F1, F2, F3, F4, U, L. cnt1. rewrite PC. cnt.
        -- pcount2. unfold own. fields. rewrite F1, F2, F3, F4, U, L. cnt1. unfold client_own at 2. rewrite PC. cnt.
      * intros PP. eapply cl_upd; [exact J | exact NN | fields; rewrite F4; reflexivity | simpl; discriminate | simpl; discriminate | exact PP].
    + injection E as E. subst s'. apply moves_split.
      * eapply prims_trans; [apply (log_prims k s (ENull r)); auto|]. apply perm_prims; auto.
        -- pcount. unfold refs. fields. rewrite U, L. cnt1. rewrite PC. cnt.
        -- pcount2. unfold own. fields. rewrite U, L. cnt1. unfold client_own at 2. rewrite PC. cnt.
      * intros PP. eapply cl_upd; [exact J | exact NN | fields; reflexivity | simpl; discriminate | simpl; discriminate | exact PP].
  - (* CCan3 *)
    destruct (st_running s) eqn:RUN.
    + destruct (remove_one r (st_queue s)) as [q|] eqn:RO.
      * destruct (dec r (set_queue q s)) as [s1|] eqn:DE; try discriminate. injection E as E. subst s'.
        apply remove_one_perm in RO.
        set (s2 := set_client c (mk_client (cl_hold cl) (CCanFin r (first_stage k))) s1).
        assert (F : frame (set_queue q s) s1).
        { unfold dec, touch in DE. fields_in DE. destruct (nth_error (st_objs s) r) as [o|]; try discriminate.
          destruct (o_freed o); destruct (Nat.eqb (o_cnt (with_cnt (o_cnt o - 1) o)) 0);
            injection DE as DE; subst s1; unfold frame; simpl; auto. }
        destruct F as (F1 & F2 & F3 & F4 & F5). fields_in F1. fields_in F2. fields_in F3. fields_in F4.
        assert (PR : Permutation (refs s) (r :: refs s2)).
        { pcount. pose proof (proj1 (Permutation_count_occ Nat.eq_dec _ _) RO z) as Q. cbn [count_occ] in Q.
          unfold refs, s2. fields. rewrite F1, F2, F3, F4, U, L. cnt1. rewrite PC. cnt. }
        assert (PO : Permutation (own s) (own s2)).
        { pcount2. pose proof (Permutation_map (fun r => (r, PWait)) RO) as RO2.
          pose proof (proj1 (Permutation_count_occ ph_dec _ _) RO2 z) as Q. cbn [count_occ map] in Q.
          unfold own, s2. fields. rewrite F1, F2, F3, F4, U, L. cnt1. unfold client_own at 2. rewrite PC.
          unfold waiting in *. destruct k; cbn [first_stage stage_own]; cnt. }
        apply moves_split.
        -- assert (P1 : prims k (ghost_of s) (abs (set_queue q s) (r :: refs s2) (own s2)))
             by (apply perm_prims; auto).
           pose proof (prims_core_abs _ _ _ _ _ _ _ C P1) as C1.
           destruct (dec_prims k _ _ _ _ _ C1 (fun p I => own_refs s2 r p I) DE) as (P2 & _).
           eapply prims_trans; [exact P1 | exact P2].
        -- intros PP. eapply cl_upd; [exact J | exact NN | unfold s2; fields; rewrite F4; reflexivity | simpl; discriminate | destruct k; simpl; discriminate | exact PP].
      * injection E as E. subst s'. apply moves_split.
        -- apply perm_prims; auto.
           ++ pcount. unfold refs. fields. rewrite U, L. cnt1. rewrite PC. cnt.
           ++ pcount2. unfold own. fields. rewrite U, L. cnt1. unfold client_own at 2. rewrite PC. cnt.
        -- intros PP. eapply cl_upd; [exact J | exact NN | fields; reflexivity | simpl; discriminate | simpl; discriminate | exact PP].
    + destruct k; try discriminate. injection E as E. subst s'. apply moves_split.
      * apply perm_prims; auto.
        -- pcount. unfold refs. fields. rewrite U, L. cnt1. rewrite PC. cnt.
        -- pcount2. unfold own. fields. rewrite U, L. cnt1. unfold client_own at 2. rewrite PC. cnt.
      * intros PP. eapply cl_upd; [exact J | exact NN | fields; reflexivity | simpl; discriminate | simpl; discriminate | exact PP].
  - (* CCanFin *)
    destruct (complete (match k with Serving => false | Aio => true end) r st h s) as [s1|] eqn:CM;
      try discriminate.
    destruct (nth_error (st_clients s1) c) as [cl1|] eqn:N1; try discriminate.
    injection E as E. subst s'.
    assert (IR : In r (refs s)).
    { eapply in_refs_client; eauto. unfold client_refs. rewrite in_app_iff, PC. simpl. auto. }
    set (O := waiting (st_queue s) ++ waiting (st_kern s) ++ flat_map server_own (st_servers s) ++
              flat_map client_own (l1 ++ l2)).
    assert (PO : Permutation (own s) (stage_own r st ++ O)).
    { pcount2. unfold own, O. rewrite L. cnt1. unfold client_own at 2. rewrite PC. cnt. }
    assert (P0 : prims k (ghost_of s) (abs s (refs s) (stage_own r st ++ O))) by (apply perm_prims; auto).
    pose proof (prims_core_abs _ _ _ _ _ _ _ C P0) as C0.
    destruct (complete_prims k _ _ _ _ _ _ _ _ C0 IR CM) as (P1 & (F1 & F2 & F3 & F5) & G).
    pose proof (can1_given _ _ _ _ _ D G) as D1.
    pose proof (clients_given_refs _ _ _ _ _ G) as (G1 & G2 & G3).
    destruct (G3 _ _ N1) as (cl0 & M0 & M1 & _). assert (cl0 = cl) by congruence. subst cl0.
    destruct (upd_split _ _ _ _ N1) as (m1 & m2 & L1 & U1).
    apply moves_split.
    + eapply prims_trans; [exact P0|]. eapply prims_trans; [exact P1|].
      apply perm_prims; auto.
      * pcount. pose proof (proj1 (Permutation_count_occ Nat.eq_dec _ _) G1 z) as Q.
        rewrite count_occ_app, L1 in Q. rewrite flat_map_app in Q. cbn [flat_map] in Q.
        rewrite !count_occ_app, client_refs_eq, count_occ_app, M1, PC in Q. cbn [cpc_refs count_occ] in Q.
        unfold refs. fields. rewrite F1, F2, F3, U1.
        rewrite !flat_map_app, !count_occ_app. cbn [flat_map]. rewrite !count_occ_app, client_refs_eq, count_occ_app.
        cbn [cl_hold cl_pc].
        destruct (next_stage st); cbn [cpc_refs count_occ]; deq; lia.
      * pcount2. pose proof (f_equal (fun l => count_occ ph_dec l z) G2) as Q. cbv beta in Q.
        rewrite L1, L in Q. rewrite !flat_map_app in Q. cbn [flat_map] in Q.
        rewrite !count_occ_app in Q.
        assert (E0 : client_own cl1 = client_own cl) by (unfold client_own; rewrite M1; auto).
        rewrite E0 in Q.
        unfold own, O. fields. rewrite F1, F2, F3, U1.
        rewrite !flat_map_app, !count_occ_app. cbn [flat_map]. rewrite !count_occ_app.
        unfold next_own. unfold client_own at 4. cbn [cl_pc].
        destruct (next_stage st); cbn [count_occ]; lia.
    + intros PP. split.
      { eapply can1_upd; [exact D1 | | fields; reflexivity | ].
        { congruence. }
        simpl. destruct (next_stage st); discriminate. }
      intros cl0 x I X. fields_in I. apply In_nth_error in I. destruct I as (j & I).
      apply nth_upd in I. destruct I as [(E1 & E2 & _) | (E1 & E2)].
      * subst cl0. cbn [cl_pc] in X.
        assert (Q : (st = StReady \/ st = StTail) /\ x = r).
        { destruct st; simpl in X; try discriminate; injection X as X; auto. }
        destruct Q as ([Q | Q] & ->); subst st.
        -- unfold complete in CM. destruct (touch_live _ _ _ _ C0 IR) as (o & NO & FR & T).
           rewrite T in CM. injection CM as CM. subst s1. fields. exists (with_state READY2DIE o).
           split; auto. eapply nth_upd_eq; eauto.
        -- apply (prims_ready k _ _ r C PP). simpl. eapply (DN cl); [eapply nth_error_In; eauto|].
           rewrite PC. auto.
      * destruct (G3 _ _ E2) as (cl3 & Y1 & Y2 & _). rewrite Y2 in X. apply nth_error_In in Y1.
        apply (prims_ready k _ _ x C PP). simpl. eauto.
  - (* CCanEnd *)
    destruct (dec r s) as [s1|] eqn:DE; try discriminate. injection E as E. subst s'.
    set (s2 := set_client c (mk_client (cl_hold cl) CIdle) s1).
    assert (F : frame s s1).
    { unfold dec, touch in DE. destruct (nth_error (st_objs s) r) as [o|]; try discriminate.
      destruct (o_freed o); destruct (Nat.eqb (o_cnt (with_cnt (o_cnt o - 1) o)) 0);
        injection DE as DE; subst s1; unfold frame; simpl; auto. }
    destruct F as (F1 & F2 & F3 & F4 & F5).
    assert (PR : Permutation (refs s) (r :: refs s2)).
    { pcount. unfold refs, s2. fields. rewrite F1, F2, F3, F4, U, L. cnt1. rewrite PC. cnt. }
    assert (PO : Permutation (own s) (own s2)).
    { pcount2. unfold own, s2. fields. rewrite F1, F2, F3, F4, U, L. cnt1. unfold client_own at 2. rewrite PC. cnt. }
    assert (P1 : prims k (ghost_of s) (ghost_of s2)) by (eapply dec_moves; eauto).
    apply moves_split.
    + eapply prims_trans; [exact P1|].
      pose proof (prims_core _ _ _ C P1) as C2.
      destruct res as [[|]|]; [|apply (log_prims k s2 _ (refs s2) (own s2)); auto..].
      assert (R2 : is_ready (st_objs s2) r).
      { apply (prims_ready k _ _ r C P1). simpl. eapply (DN cl); [eapply nth_error_In; eauto|].
        rewrite PC. auto. }
      destruct R2 as (o & NO & RO). apply prims_one.
      apply (P_cancelled k (st_objs s2) (st_files s2) (st_log s2) (refs s2) (own s2) c r o NO RO).
    + intros PP. eapply cl_upd; [exact J | exact NN | unfold s2; fields; rewrite F4; reflexivity | simpl; discriminate | simpl; discriminate | exact PP].
Qed.
