(** Lifetime of requests and files: servers and the other actions; the invariant
    of all reachable states. *)
From Coq Require Import List Bool PeanoNat Lia Permutation.
From Verif Require Import LifeModel LifeSpec LifeProofs LifeProofs2 LifeMain LifeMain2.
Import ListNotations.

Lemma cl_same : forall k s s', inv2 s -> st_clients s' = st_clients s ->
  prims k (ghost_of s) (ghost_of s') -> can1 s' /\ ended s'.
Proof.
  intros k s s' ((C & D) & DN) E P. split; [eapply can1_same; eauto | eapply ended_same; eauto].
Qed.

Lemma dec_frame : forall r s s1, dec r s = Some s1 -> frame s s1.
Proof.
  intros. unfold dec, touch in H. destruct (nth_error (st_objs s) r) as [o|]; try discriminate.
  destruct (o_freed o); destruct (Nat.eqb (o_cnt (with_cnt (o_cnt o - 1) o)) 0);
    injection H as H; subst s1; unfold frame; simpl; auto.
Qed.

Lemma dec_bare_frame : forall r s s1, dec_bare r s = Some s1 -> frame s s1.
Proof.
  intros. unfold dec_bare, touch in H. destruct (nth_error (st_objs s) r) as [o|]; try discriminate.
  destruct (o_freed o); destruct (Nat.eqb (o_cnt (with_cnt (o_cnt o - 1) o)) 0);
    injection H as H; subst s1; unfold frame; simpl; auto.
Qed.

Lemma waiting_first : forall k r, stage_own r (first_stage k) = [(r, PWait)].
Proof. destruct k; auto. Qed.

Lemma server_moves : forall k i h s s', inv2 s -> server_step k i h s = Some s' -> moves k s s'.
Proof.
  intros k i h s s' J E. pose proof J as ((C & D) & DN). unfold server_step in E.
  destruct (nth_error (st_servers s) i) as [v|] eqn:N; try discriminate.
  destruct (upd_split _ _ _ _ N) as (l1 & l2 & L & U).
  destruct (sv_pc v) eqn:PC; try discriminate.
  - (* SvServe *)
    assert (IS : In r (server_refs v)).
    { unfold server_refs. rewrite PC, in_app_iff. simpl. auto. }
    pose proof (in_refs_server _ _ _ _ N IS) as IR.
    destruct (touch_live _ _ _ _ C IR) as (o & NO & FR & T). rewrite T in E.
    assert (IO : In (r, PWait) (own s)).
    { unfold own. rewrite !in_app_iff. do 2 right. left. apply in_flat_map. exists v.
      split; [eapply nth_error_In; eauto|]. unfold server_own. rewrite in_app_iff, PC. simpl. auto. }
    destruct (co_ok _ C _ _ _ IO NO) as (K1 & K2). rewrite K2 in E.
    destruct (touch_file (o_fid o) s) as [[x s2]|] eqn:TF; try discriminate. injection E as E. subst s'.
    destruct (use_prims k s s2 r o _ x (refs s) (own s) NO K2 TF) as (P1 & F1 & F2 & F3 & F4 & F5).
    apply moves_split.
    + eapply prims_trans; [exact P1|].
      eapply prims_trans; [apply (log_prims k s2 (EServe r (o_fid o) (o_cnt o <? 2))); auto|].
      apply perm_prims; auto.
      * pcount. unfold refs. fields. rewrite F1, F2, F3, F4, U, L. cnt1. rewrite PC. cnt.
      * pcount2. unfold own. fields. rewrite F1, F2, F3, F4, U, L. cnt1. rewrite PC. rewrite waiting_first. cnt.
    + intros PP. apply (cl_same k s); auto.
  - (* SvFin *)
    destruct (complete true r st h s) as [s1|] eqn:CM; try discriminate. injection E as E. subst s'.
    assert (IS : In r (server_refs v)).
    { unfold server_refs. rewrite PC, in_app_iff. simpl. auto. }
    pose proof (in_refs_server _ _ _ _ N IS) as IR.
    set (O := waiting (st_queue s) ++ waiting (st_kern s) ++
              (flat_map server_own (l1 ++ l2) ++ waiting (sv_cbs v) ++ waiting rest) ++
              flat_map client_own (st_clients s)).
    assert (PO : Permutation (own s) (stage_own r st ++ O)).
    { pcount2. unfold own, O. rewrite L. cnt1. rewrite PC. cnt. }
    assert (P0 : prims k (ghost_of s) (abs s (refs s) (stage_own r st ++ O))) by (apply perm_prims; auto).
    pose proof (prims_core_abs _ _ _ _ _ _ _ C P0) as C0.
    destruct (complete_prims k _ _ _ _ _ _ _ _ C0 IR CM) as (P1 & (F1 & F2 & F3 & F5) & G).
    pose proof (clients_given_refs _ _ _ _ _ G) as (G1 & G2 & G3).
    set (s2 := set_server i _ s1).
    apply moves_split.
    + eapply prims_trans; [exact P0|]. eapply prims_trans; [exact P1|].
      apply perm_prims; auto.
      * pcount. pose proof (proj1 (Permutation_count_occ Nat.eq_dec _ _) G1 z) as Q.
        rewrite count_occ_app in Q.
        unfold refs, s2. fields. rewrite F1, F2, F3, U, L. cnt1. rewrite PC. rewrite Q.
        destruct (next_stage st); cnt.
      * pcount2. unfold own, O, s2. fields. rewrite F1, F2, F3, U, G2. cnt1.
        unfold next_own. destruct (next_stage st); cnt.
    + intros PP. split; [eapply (can1_given s); eauto | eapply (ended_given k s); eauto].
  - (* SvDrop *)
    assert (FD : forall s1, (match k with Serving => dec r s | Aio => dec_bare r s end) = Some s1 -> frame s s1).
    { intros s1 X. destruct k; [eapply dec_frame | eapply dec_bare_frame]; eauto. }
    destruct (match k with Serving => dec r s | Aio => dec_bare r s end) as [s1|] eqn:DE; try discriminate.
    injection E as E. subst s'. destruct (FD _ eq_refl) as (F1 & F2 & F3 & F4 & F5). clear FD.
    set (s2 := set_server i _ s1).
    assert (PR : Permutation (refs s) (r :: refs s2)).
    { pcount. unfold refs, s2. fields. rewrite F1, F2, F3, F4, U, L. cnt1. rewrite PC. destruct rest; cnt. }
    assert (PO : Permutation (own s) (own s2)).
    { pcount2. unfold own, s2. fields. rewrite F1, F2, F3, F4, U, L. cnt1. rewrite PC.
      destruct rest; cnt1; rewrite ?waiting_first; cnt. }
    assert (P1 : prims k (ghost_of s) (abs s (r :: refs s2) (own s2))) by (apply perm_prims; auto).
    pose proof (prims_core_abs _ _ _ _ _ _ _ C P1) as C1.
    apply moves_split.
    + eapply prims_trans; [exact P1|]. destruct k.
      * destruct (dec_prims Serving _ _ _ _ _ C1 (fun p I => own_refs s2 r p I) DE) as (P2 & _). exact P2.
      * destruct (dec_bare_prims Aio _ _ _ _ _ eq_refl C1 (fun p I => own_refs s2 r p I) DE) as (P2 & _). exact P2.
    + intros PP. apply (cl_same k s); auto.
  - (* SvFill *)
    destruct todo as [|r todo].
    + injection E as E. subst s'.
      apply moves_split.
      * apply perm_prims; auto.
        -- pcount. unfold refs. fields. rewrite U, L. cnt1. rewrite PC. cnt.
        -- pcount2. unfold own. fields. rewrite U, L. cnt1. rewrite PC. cnt.
      * intros PP. apply (cl_same k s); auto.
    + assert (IS : In r (server_refs v)).
      { unfold server_refs. rewrite PC. cbn [spc_refs]. rewrite !in_app_iff. simpl. auto. }
      pose proof (in_refs_server _ _ _ _ N IS) as IR.
      destruct (touch_live _ _ _ _ C IR) as (o & NO & FR & T). rewrite T in E.
      assert (IO : In (r, PWait) (own s)).
      { unfold own. rewrite !in_app_iff. do 2 right. left. apply in_flat_map. exists v.
        split; [eapply nth_error_In; eauto|]. unfold server_own. rewrite in_app_iff, PC. cbn [spc_own].
        rewrite in_app_iff. simpl. auto. }
      destruct (co_ok _ C _ _ _ IO NO) as (K1 & K2).
      destruct (use_file r o s) as [s2|] eqn:UF; try discriminate.
      destruct (use_file_prims k s s2 r o (refs s) (own s) NO) as (P1 & F); auto. { congruence. }
      destruct (inc r s2) as [s3|] eqn:IC; try discriminate. injection E as E. subst s'.
      pose proof (prims_core_abs _ _ _ _ _ _ _ C P1) as C1.
      assert (NN : ~ In (r, PNew) (own s)).
      { apply other_not_new; auto. rewrite !in_app_iff. do 2 right. apply in_flat_map. exists v.
        split; auto. eapply nth_error_In; eauto. }
      destruct (inc_prims k _ _ _ _ _ C1 IR NN IC) as (P2 & F').
      pose proof (frame_trans _ _ _ F F') as (F1 & F2 & F3 & F4 & F5).
      apply moves_split.
      * eapply prims_trans; [exact P1|]. eapply prims_trans; [exact P2|]. apply perm_prims; auto.
        -- pcount. unfold refs. fields. rewrite F1, F2, F3, F4, U, L. cnt1. rewrite PC. cnt.
        -- pcount2. unfold own. fields. rewrite F1, F2, F3, F4, U, L. cnt1. rewrite PC. cnt.
      * intros PP. apply (cl_same k s); auto.
  - (* SvClear *)
    destruct todo as [|r todo].
    + injection E as E. subst s'. apply moves_split.
      * apply perm_prims; auto.
        -- pcount. unfold refs. fields. rewrite U, L. cnt1. rewrite PC. cnt.
        -- pcount2. unfold own. fields. rewrite U, L. cnt1. rewrite PC. cnt.
      * intros PP. apply (cl_same k s); auto.
    + destruct (dec r s) as [s1|] eqn:DE; try discriminate. injection E as E. subst s'.
      destruct (dec_frame _ _ _ DE) as (F1 & F2 & F3 & F4 & F5).
      set (s2 := set_server i _ s1).
      assert (PR : Permutation (refs s) (r :: refs s2)).
      { pcount. unfold refs, s2. fields. rewrite F1, F2, F3, F4, U, L. cnt1. rewrite PC. cnt. }
      assert (PO : Permutation (own s) (own s2)).
      { pcount2. unfold own, s2. fields. rewrite F1, F2, F3, F4, U, L. cnt1. rewrite PC. cnt. }
      apply moves_split.
      * eapply dec_moves; eauto.
      * intros PP. apply (cl_same k s); auto.
Qed.

Lemma exec_moves : forall k a s s', inv2 s -> exec k a s = Some s' -> moves k s s'.
Proof.
  intros k a s s' J E. pose proof J as ((C & D) & DN). destruct a; cbn [exec] in E.
  - (* ANewFile *)
    injection E as E. subst s'. apply moves_split.
    + apply prims_one. apply (P_newfile k (st_objs s) (st_files s) (st_log s) (refs s) (own s)).
    + apply (cl_same k s); auto.
  - (* ADestroy *)
    destruct (nth_error (st_files s) f) as [x|] eqn:NF; try discriminate.
    destruct (f_alive x) eqn:AL; try discriminate. injection E as E. subst s'. apply moves_split.
    + apply prims_one. apply (P_destroy k (st_objs s) (st_files s) (st_log s) (refs s) (own s)); auto.
    + apply (cl_same k s); auto.
  - (* ANew *)
    destruct (nth_error (st_clients s) c) as [cl|] eqn:N; try discriminate.
    destruct (upd_split _ _ _ _ N) as (l1 & l2 & L & U).
    destruct (cl_pc cl) eqn:PC; try discriminate.
    destruct (touch_file f s) as [[x s1]|] eqn:TF; try discriminate. injection E as E. subst s'.
    apply touch_file_eq in TF. destruct TF as (NF & (F1 & F2 & F3 & F4 & F5) & E1 & E2 & E3).
    apply moves_split.
    + eapply prims_trans.
      * apply prims_one. apply (P_new k (st_objs s) (st_files s) (st_log s) (refs s) (own s) f x c NF).
      * unfold ghost_of, abs. fields. rewrite E1, E2, E3. apply prims_one. apply P_perm.
        -- pcount. unfold refs. fields. rewrite F1, F2, F3, F4, U, L. cnt1. rewrite PC. cnt.
        -- pcount2. unfold own. fields. rewrite F1, F2, F3, F4, U, L. cnt1. replace (client_own cl) with (@nil (nat * ph)) by (unfold client_own; rewrite PC; auto). cnt.
    + intros PP. eapply cl_upd; [exact J | | fields; rewrite F4; reflexivity | simpl; discriminate | simpl; discriminate | exact PP].
      congruence.
  - (* ACopy *)
    destruct (nth_error (st_clients s) c) as [cl|] eqn:N; try discriminate.
    destruct (cl_pc cl) eqn:PC; try discriminate.
    destruct (holds cl r) eqn:HO; try discriminate. apply holds_in in HO.
    assert (IR : In r (refs s)).
    { eapply in_refs_client; eauto. unfold client_refs. rewrite in_app_iff. auto. }
    destruct (give_prims k _ _ _ _ _ _ C IR (held_not_new _ _ _ _ C N HO) E) as (P1 & (F1 & F2 & F3 & F5) & cl2 & N2 & G).
    assert (GG : clients_given (Some d) StHandler r (st_clients s) (st_clients s')).
    { simpl. exists cl2. auto. }
    pose proof (clients_given_refs _ _ _ _ _ GG) as (G1 & G2 & G3).
    apply moves_split.
    + eapply prims_trans; [exact P1|]. apply perm_prims; auto.
      * pcount. pose proof (proj1 (Permutation_count_occ Nat.eq_dec _ _) G1 z) as Q.
        rewrite count_occ_app in Q. cbn [given count_occ] in Q.
        unfold refs. rewrite F1, F2, F3. cnt1. rewrite Q. cnt.
      * unfold own. rewrite F1, F2, F3, G2. apply Permutation_refl.
    + intros PP. split; [eapply (can1_given s); eauto | eapply (ended_given k s); eauto].
  - (* ADrop *)
    destruct (nth_error (st_clients s) c) as [cl|] eqn:N; try discriminate.
    destruct (upd_split _ _ _ _ N) as (l1 & l2 & L & U).
    destruct (cl_pc cl) eqn:PC; try discriminate.
    destruct (remove_one r (cl_hold cl)) as [l|] eqn:RO; try discriminate.
    destruct (dec r s) as [s1|] eqn:DE; try discriminate. injection E as E. subst s'.
    destruct (dec_frame _ _ _ DE) as (F1 & F2 & F3 & F4 & F5).
    apply remove_one_perm in RO.
    set (s2 := set_client c _ s1).
    assert (PR : Permutation (refs s) (r :: refs s2)).
    { pcount. pose proof (proj1 (Permutation_count_occ Nat.eq_dec _ _) RO z) as Q. cbn [count_occ] in Q.
      unfold refs, s2. fields. rewrite F1, F2, F3, F4, U, L. cnt1. rewrite PC. cnt. }
    assert (PO : Permutation (own s) (own s2)).
    { pcount2. unfold own, s2. fields. rewrite F1, F2, F3, F4, U, L. cnt1. replace (client_own cl) with (@nil (nat * ph)) by (unfold client_own; rewrite PC; auto). cnt. }
    apply moves_split.
    + eapply dec_moves; eauto.
    + intros PP. eapply cl_upd; [exact J | | unfold s2; fields; rewrite F4; reflexivity | simpl; discriminate | simpl; discriminate | exact PP].
      congruence.
  - (* APoll *)
    destruct (nth_error (st_clients s) c) as [cl|] eqn:N; try discriminate.
    destruct (cl_pc cl) eqn:PC; try discriminate.
    destruct (touch r s) as [[o s1]|] eqn:T; try discriminate.
    destruct (holds cl r) eqn:HO; try discriminate. injection E as E. subst s'. apply holds_in in HO.
    assert (IR : In r (refs s)).
    { eapply in_refs_client; eauto. unfold client_refs. rewrite in_app_iff. auto. }
    destruct (touch_live _ _ _ _ C IR) as (o' & NO & FR & T'). rewrite T' in T. injection T as T1 T2. subst.
    apply moves_split.
    + apply (log_prims k s1 _ (refs s1) (own s1)). auto.
    + apply (cl_same k s1); auto.
  - (* AWait *)
    destruct (nth_error (st_clients s) c) as [cl|] eqn:N; try discriminate.
    destruct (cl_pc cl) eqn:PC; try discriminate.
    destruct (touch r s) as [[o s1]|] eqn:T; try discriminate.
    destruct (o_state o) eqn:ST; try discriminate.
    destruct (holds cl r) eqn:HO; try discriminate. injection E as E. subst s'. apply holds_in in HO.
    assert (IR : In r (refs s)).
    { eapply in_refs_client; eauto. unfold client_refs. rewrite in_app_iff. auto. }
    destruct (touch_live _ _ _ _ C IR) as (o' & NO & FR & T'). rewrite T' in T. injection T as T1 T2. subst.
    apply moves_split.
    + apply prims_one. apply (P_waited k (st_objs s1) (st_files s1) (st_log s1) (refs s1) (own s1) c r o NO ST).
    + apply (cl_same k s1); auto.
  - (* ACancel *)
    destruct (nth_error (st_clients s) c) as [cl|] eqn:N; try discriminate.
    destruct (upd_split _ _ _ _ N) as (l1 & l2 & L & U).
    destruct (cl_pc cl) eqn:PC; try discriminate.
    destruct (touch r s) as [[o s1]|] eqn:T; try discriminate.
    destruct (holds cl r) eqn:HO; try discriminate. apply holds_in in HO.
    assert (IR : In r (refs s)).
    { eapply in_refs_client; eauto. unfold client_refs. rewrite in_app_iff. auto. }
    destruct (touch_live _ _ _ _ C IR) as (o' & NO & FR & T'). rewrite T' in T. injection T as T1 T2. subst.
    destruct (o_file o) as [f|] eqn:OF; injection E as E; subst s'; apply moves_split.
    + apply perm_prims; auto.
      * pcount. unfold refs. fields. rewrite U, L. cnt1. rewrite PC. cnt.
      * pcount2. unfold own. fields. rewrite U, L. cnt1. replace (client_own cl) with (@nil (nat * ph)) by (unfold client_own; rewrite PC; auto). cnt.
    + intros PP. eapply cl_upd; [exact J | | fields; reflexivity | | simpl; discriminate | exact PP].
      * congruence.
      * simpl. intros x X. injection X as X. subst. auto.
    + apply (log_prims k s1 _ (refs s1) (own s1)). auto.
    + apply (cl_same k s1); auto.
  - apply (client_moves k c h); auto.
  - (* AStop *)
    injection E as E. subst s'. apply moves_split.
    + apply prims_refl.
    + apply (cl_same k s); auto.
  - (* APop *)
    destruct k; try discriminate.
    destruct (nth_error (st_servers s) i) as [v|] eqn:N; try discriminate.
    destruct (upd_split _ _ _ _ N) as (l1 & l2 & L & U).
    destruct (remove_one r (st_queue s)) as [q|] eqn:RO; try discriminate.
    destruct (sv_pc v) eqn:PC; try discriminate.
    destruct (inc r s) as [s1|] eqn:IC; try discriminate.
    destruct (dec r (set_queue q s1)) as [s2|] eqn:DE; try discriminate. injection E as E. subst s'.
    apply remove_one_perm in RO.
    assert (IQ : In r (st_queue s)) by (eapply Permutation_in; [apply Permutation_sym; eauto | simpl; auto]).
    assert (IR : In r (refs s)) by (unfold refs; rewrite in_app_iff; auto).
    assert (NN : ~ In (r, PNew) (own s)) by (apply other_not_new; auto; rewrite in_app_iff; auto).
    destruct (inc_prims Serving _ _ _ _ _ C IR NN IC) as (P1 & F).
    destruct (dec_frame _ _ _ DE) as (F1 & F2 & F3 & F4 & F5). fields_in F1.
    destruct F as (H1 & H2 & H3 & H4 & H5). fields_in F2. fields_in F3. fields_in F4.
    set (s3 := set_server i _ s2).
    assert (P2 : prims Serving (abs s1 (r :: refs s) (own s)) (abs (set_queue q s1) (r :: refs s3) (own s3))).
    { apply perm_prims; auto.
      - pcount. pose proof (proj1 (Permutation_count_occ Nat.eq_dec _ _) RO z) as Q. cbn [count_occ] in Q.
        unfold refs, s3. fields. rewrite F1, F2, F3, F4, H2, H3, H4, U, L. cnt1. rewrite PC. cnt.
      - pcount2. pose proof (Permutation_map (fun r => (r, PWait)) RO) as RO2.
        pose proof (proj1 (Permutation_count_occ ph_dec _ _) RO2 z) as Q. cbn [count_occ map] in Q.
        unfold own, s3. fields. rewrite F1, F2, F3, F4, H2, H3, H4, U, L. cnt1. rewrite PC.
        unfold waiting in *. cnt. }
    pose proof (prims_core_abs _ _ _ _ _ _ _ C (prims_trans _ _ _ _ P1 P2)) as C2.
    destruct (dec_prims Serving _ _ _ _ _ C2 (fun p I => own_refs s3 r p I) DE) as (P3 & _).
    apply moves_split.
    + eapply prims_trans; [exact P1|]. eapply prims_trans; [exact P2 | exact P3].
    + apply (cl_same Serving s); auto. unfold s3. fields. congruence.
  - (* ATake *)
    destruct k; try discriminate.
    destruct (nth_error (st_servers s) i) as [v|] eqn:N; try discriminate.
    destruct (upd_split _ _ _ _ N) as (l1 & l2 & L & U).
    destruct (sv_pc v) eqn:PC; try discriminate.
    destruct (sv_cbs v) eqn:CB; try discriminate. injection E as E. subst s'.
    assert (Q : st_queue s = firstn n (st_queue s) ++ skipn n (st_queue s)) by (symmetry; apply firstn_skipn).
    apply moves_split.
    + apply perm_prims; auto.
      * pcount. unfold refs. fields. rewrite U, L. rewrite Q at 1. cnt1. rewrite PC, CB. cnt.
      * pcount2. unfold own. fields. rewrite U, L. rewrite Q at 1. cnt1. rewrite PC, CB. cnt.
    + apply (cl_same Aio s); auto.
  - (* ASubmit *)
    destruct (nth_error (st_servers s) i) as [v|] eqn:N; try discriminate.
    destruct (upd_split _ _ _ _ N) as (l1 & l2 & L & U).
    destruct (sv_pc v) eqn:PC; try discriminate. injection E as E. subst s'.
    assert (Q : sv_cbs v = firstn n (sv_cbs v) ++ skipn n (sv_cbs v)) by (symmetry; apply firstn_skipn).
    apply moves_split.
    + apply perm_prims; auto.
      * pcount. pose proof (f_equal (fun l => count_occ Nat.eq_dec l z) Q) as Q2. cbv beta in Q2.
        rewrite count_occ_app in Q2. unfold refs. fields. rewrite U, L. cnt1. rewrite PC. cnt.
      * pcount2. pose proof (f_equal (fun l => count_occ ph_dec (waiting l) z) Q) as Q2. cbv beta in Q2.
        rewrite waiting_app, count_occ_app in Q2. unfold own. fields. rewrite U, L. cnt1. rewrite PC. cnt.
    + apply (cl_same k s); auto.
  - (* AReap *)
    destruct (nth_error (st_servers s) i) as [v|] eqn:N; try discriminate.
    destruct (upd_split _ _ _ _ N) as (l1 & l2 & L & U).
    destruct (remove_each evs (st_kern s)) as [kern|] eqn:RE; try discriminate.
    destruct evs as [|r rest]; try discriminate.
    destruct (sv_pc v) eqn:PC; try discriminate. injection E as E. subst s'.
    apply remove_each_perm in RE.
    apply moves_split.
    + apply perm_prims; auto.
      * pcount. pose proof (proj1 (Permutation_count_occ Nat.eq_dec _ _) RE z) as Q.
        rewrite count_occ_app in Q. cbn [count_occ] in Q.
        unfold refs. fields. rewrite U, L. cnt1. rewrite PC. cnt.
      * pcount2. pose proof (Permutation_map (fun r => (r, PWait)) RE) as RE2.
        pose proof (proj1 (Permutation_count_occ ph_dec _ _) RE2 z) as Q.
        rewrite map_app, count_occ_app in Q. cbn [count_occ map] in Q.
        unfold own. fields. rewrite U, L. cnt1. rewrite PC, waiting_first. unfold waiting in *. cnt.
    + apply (cl_same k s); auto.
  - apply (server_moves k i h); auto.
Qed.

Lemma moves_inv : forall k s s', inv2 s -> moves k s s' -> inv2 s'.
Proof.
  intros k s s' ((C & D) & DN) (P & D' & DN'). split; [split|]; auto. eapply prims_core; eauto.
Qed.

Lemma flat_map_repeat_nil : forall A B (f : A -> list B) x n, f x = [] -> flat_map f (repeat x n) = [].
Proof. induction n; simpl; intros; auto. rewrite H. simpl. auto. Qed.

Lemma init_refs : forall ns nc, refs (init ns nc) = [].
Proof. intros. unfold refs. simpl. rewrite !flat_map_repeat_nil; auto. Qed.

Lemma init_own : forall ns nc, own (init ns nc) = [].
Proof. intros. unfold own. simpl. rewrite !flat_map_repeat_nil; auto. Qed.

Definition empty_ghost : ghost := mk_g [] [] [] [] [].

Lemma init_ghost : forall ns nc, ghost_of (init ns nc) = empty_ghost.
Proof. intros. unfold ghost_of, abs. rewrite init_refs, init_own. auto. Qed.

Lemma empty_core : core empty_ghost.
Proof.
  constructor; simpl; intros; try tauto; try (destruct r; discriminate). constructor.
Qed.

Lemma init_inv : forall ns nc, inv2 (init ns nc).
Proof.
  intros. split; [split|].
  - rewrite init_ghost. apply empty_core.
  - intros cl r I. simpl in I. apply repeat_spec in I. subst. discriminate.
  - intros cl r I. simpl in I. apply repeat_spec in I. subst. discriminate.
Qed.

Lemma run_prims : forall k acts s s', inv2 s -> run k acts s = Some s' ->
  prims k (ghost_of s) (ghost_of s') /\ inv2 s'.
Proof.
  induction acts; simpl; intros.
  - injection H0 as H0. subst. split; auto. apply prims_refl.
  - destruct (exec k a s) as [s1|] eqn:E; try discriminate.
    pose proof (exec_moves _ _ _ _ H E) as M. pose proof (moves_inv _ _ _ H M) as J.
    destruct (IHacts _ _ J H0) as (P & Q). split; auto. eapply prims_trans; [apply M | exact P].
Qed.

Lemma reachable_prims : forall k ns nc s, reachable k ns nc s ->
  prims k empty_ghost (ghost_of s) /\ inv2 s.
Proof.
  intros k ns nc s (acts & E). rewrite <- (init_ghost ns nc).
  eapply run_prims; eauto. apply init_inv.
Qed.
