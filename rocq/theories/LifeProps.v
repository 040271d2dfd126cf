(** C95: lifetime of request and file objects. *)
From Coq Require Import List Bool PeanoNat Lia Permutation.
From Verif Require Import LifeModel LifeSpec LifeProofs LifeProofs2 LifeMain LifeMain2 LifeMain3 LifeLog.
Import ListNotations.

(** * Requests *)

(** A deleted request is never touched. *)
Theorem C95_no_use_after_free : forall k ns nc s r,
  reachable k ns nc s -> ~ In (EBadReq r) (st_log s).
Proof. intros. apply reachable_linv in H. apply (l_bad _ _ H r). Qed.
Print Assumptions C95_no_use_after_free.

(** It is deleted at most once. *)
Theorem C95_freed_once : forall k ns nc s r,
  reachable k ns nc s -> times (is_free r) (st_log s) <= 1.
Proof.
  intros. apply reachable_linv in H. pose proof (l_free _ _ H r) as F. simpl in F. rewrite F.
  destruct (nth_error (st_objs s) r) as [o|]; [|lia]. destruct (o_freed o); lia.
Qed.
Print Assumptions C95_freed_once.

Lemma times_in : forall p l, 0 < times p l <-> exists e, In e l /\ p e = true.
Proof.
  intros. unfold times. split.
  - intros L. destruct (filter p l) as [|e m] eqn:E; simpl in L; [lia|].
    exists e. apply filter_In. rewrite E. simpl. auto.
  - intros (e & I & P). assert (J : In e (filter p l)) by (apply filter_In; auto).
    destruct (filter p l); simpl in *; [tauto | lia].
Qed.

Lemma freed_iff : forall k ns nc s r, reachable k ns nc s ->
  (freed s r <-> exists o, nth_error (st_objs s) r = Some o /\ o_freed o = true).
Proof.
  intros k ns nc s r H. apply reachable_linv in H. pose proof (l_free _ _ H r) as F. simpl in F.
  assert (T : freed s r <-> 0 < times (is_free r) (st_log s)).
  { rewrite times_in. split.
    - intros (st & I). exists (EFree r st). simpl. rewrite Nat.eqb_refl. auto.
    - intros (e & I & P). destruct e; try discriminate. simpl in P. apply Nat.eqb_eq in P. subst.
      exists st. auto. }
  rewrite T, F. destruct (nth_error (st_objs s) r) as [o|].
  - destruct (o_freed o) eqn:E; split.
    + eauto.
    + lia.
    + lia.
    + intros (o' & N & E'). congruence.
  - split; [lia | intros (o' & N & _); discriminate].
Qed.

Lemma created_iff : forall k ns nc s r, reachable k ns nc s ->
  (created s r <-> exists o, nth_error (st_objs s) r = Some o).
Proof.
  intros k ns nc s r H. apply reachable_linv in H. split.
  - intros (c & f & I). destruct (proj1 (l_new _ _ H r f)) as (o & N & _); eauto.
  - intros (o & N). destruct (proj2 (l_new _ _ H r (o_fid o))) as (c & I); [simpl; eauto|].
    exists c, (o_fid o). auto.
Qed.

Lemma refs_in : forall s r, In r (refs s) <-> 0 < refs_to s r.
Proof. intros. unfold refs_to. apply count_occ_In. Qed.

(** Queues of workers: a request is deleted when nobody has a counting pointer to
    it any more, neither earlier nor later. *)
Theorem C95_freed_iff_unreferenced : forall ns nc s r,
  reachable Serving ns nc s -> created s r -> (freed s r <-> refs_to s r = 0).
Proof.
  intros ns nc s r R C. rewrite (created_iff _ _ _ _ _ R) in C. destruct C as (o & N).
  rewrite (freed_iff _ _ _ _ _ R). apply reachable_linv in R.
  pose proof (co_cnt _ (l_core _ _ R) r o N) as CN. unfold count in CN. change (g_refs (ghost_of s)) with (refs s) in CN.
  fold (refs_to s r) in CN. split.
  - intros (o' & N' & F). assert (o' = o) by congruence. subst.
    rewrite <- CN. eapply (co_freed _ (l_core _ _ R)); eauto.
  - intros Z. exists o. split; auto. destruct (o_freed o) eqn:F; auto. exfalso.
    destruct (l_last _ _ R) as (L & K).
    assert (I : In (ELast r) (st_log s)) by (apply L; exists o; repeat split; auto; lia).
    apply K in I. discriminate.
Qed.
Print Assumptions C95_freed_iff_unreferenced.

(** So no request is left over when queue, workers and clients have none. *)
Theorem C95_no_leak : forall ns nc s,
  reachable Serving ns nc s -> refs s = [] -> forall r, created s r -> freed s r.
Proof.
  intros. apply (proj2 (C95_freed_iff_unreferenced _ _ _ _ H H1)).
  unfold refs_to. rewrite H0. auto.
Qed.
Print Assumptions C95_no_leak.

(** The AIO queue: a request that nobody has a pointer to is deleted or lost, and
    the lost ones are those whose count became 0 in handle_events.  A lost one is
    never deleted, and the count becomes 0 there or in a counting pointer, not
    in both. *)
Theorem C95_aio_leak : forall ns nc s r,
  reachable Aio ns nc s -> created s r ->
  (refs_to s r = 0 <-> (freed s r \/ In (ELast r) (st_log s))) /\
  ~ (freed s r /\ In (ELast r) (st_log s)).
Proof.
  intros ns nc s r R C. rewrite (created_iff _ _ _ _ _ R) in C. destruct C as (o & N).
  rewrite (freed_iff _ _ _ _ _ R). apply reachable_linv in R.
  pose proof (co_cnt _ (l_core _ _ R) r o N) as CN. unfold count in CN. change (g_refs (ghost_of s)) with (refs s) in CN.
  fold (refs_to s r) in CN. destruct (l_last _ _ R) as (L & _). specialize (L r). simpl in L.
  rewrite L. rewrite <- CN. split; [split|].
  - intros Z. destruct (o_freed o) eqn:F; [left | right]; eauto.
  - intros [(o' & N' & F) | (o' & N' & F & Z)]; assert (o' = o) by congruence; subst; auto.
    eapply (co_freed _ (l_core _ _ R)); eauto.
  - intros ((o' & N' & F) & (o'' & N'' & F'' & _)). congruence.
Qed.
Print Assumptions C95_aio_leak.

(** Once lost, lost for good. *)
Theorem C95_lost_stays_lost : forall ns nc s acts s' r,
  reachable Aio ns nc s -> In (ELast r) (st_log s) -> run Aio acts s = Some s' ->
  refs_to s' r = 0 /\ ~ freed s' r.
Proof.
  assert (G : forall k acts s s', run k acts s = Some s' -> forall e, In e (st_log s) ->
     forall ns nc, reachable k ns nc s -> In e (st_log s')).
  { intros k acts. induction acts as [|a acts IH]; intros s s' E e I ns nc R; simpl in E.
    - congruence.
    - destruct (exec k a s) as [s1|] eqn:X; [|discriminate].
      assert (R1 : reachable k ns nc s1).
      { destruct R as (as0 & R). exists (as0 ++ [a]). revert R. generalize (init ns nc).
        induction as0 as [|b as0 IH2]; intros t R; simpl in *.
        - injection R as R. subst. rewrite X. auto.
        - destruct (exec k b t); [|discriminate]. auto. }
      eapply IH; [exact E | | exact R1].
      destruct (reachable_prims _ _ _ _ R) as (_ & V).
      destruct (exec_moves _ _ _ _ V X) as (P & _).
      revert I. change (In e (g_log (ghost_of s)) -> In e (g_log (ghost_of s1))).
      induction P as [g|g g1 g2 P IHP Q]; auto. intros I. specialize (IHP I). clear I.
      destruct Q; gsimp; simpl; auto; try (apply in_alive; auto); right; try (apply in_alive; auto); auto. }
  intros ns nc s acts s' r R I E.
  assert (I' : In (ELast r) (st_log s')) by (eapply G; eauto).
  assert (R' : reachable Aio ns nc s').
  { destruct R as (as0 & R). exists (as0 ++ acts). revert R. generalize (init ns nc).
    induction as0 as [|b as0 IH2]; intros t R; simpl in *.
    - injection R as R. subst. auto.
    - destruct (exec Aio b t); [|discriminate]. auto. }
  assert (C : created s' r).
  { rewrite (created_iff _ _ _ _ _ R'). apply reachable_linv in R'. destruct (l_last _ _ R') as (L & _).
    destruct (proj1 (L r) I') as (o & N & _). eauto. }
  destruct (C95_aio_leak _ _ _ _ R' C) as (A & B). split.
  - apply A. auto.
  - tauto.
Qed.
Print Assumptions C95_lost_stays_lost.

(** Deleted requests are finished (the assertion of the destructor), except those
    that add_request refused. *)
Theorem C95_deleted_finished : forall k ns nc s r st,
  reachable k ns nc s -> In (EFree r st) (st_log s) -> st = READY2DIE \/ (rejected s r /\ st = OP).
Proof.
  intros. apply reachable_linv in H. exact (l_freest _ _ H _ _ H0).
Qed.
Print Assumptions C95_deleted_finished.

(** While it is served or completed, a request has its file. *)
Theorem C95_no_null_at_completion : forall k ns nc s r,
  reachable k ns nc s -> ~ In (ENullFin r) (st_log s).
Proof. intros. apply reachable_linv in H. apply (l_bad _ _ H r). Qed.
Print Assumptions C95_no_null_at_completion.

(** check_nref complains in a worker exactly if the worker has the only pointer. *)
Theorem C95_warning : forall k ns nc s i h s' v r,
  reachable k ns nc s -> nth_error (st_servers s) i = Some v -> sv_pc v = SvServe r ->
  exec k (AServer i h) s = Some s' ->
  exists f w, hd_error (st_log s') = Some (EServe r f w) /\ created_on s r f /\
              (w = true <-> refs_to s r = 1).
Proof.
  intros k ns nc s i h s' v r R V PC X. apply reachable_linv in R.
  simpl in X. unfold server_step in X. rewrite V, PC in X.
  assert (IR : In r (refs s)).
  { unfold refs. rewrite !in_app_iff, !in_flat_map. right. right. left. exists v.
    split; [eapply nth_error_In; eauto|]. unfold server_refs. rewrite PC, in_app_iff. simpl. auto. }
  assert (IO : In (r, PWait) (own s)).
  { unfold own. rewrite !in_app_iff, !in_flat_map. right. right. left. exists v.
    split; [eapply nth_error_In; eauto|]. unfold server_own. rewrite PC, in_app_iff. simpl. auto. }
  unfold touch in X. destruct (nth_error (st_objs s) r) as [o|] eqn:N; [|discriminate].
  pose proof (co_ok _ (l_core _ _ R) r PWait o IO N) as (ST & FI). simpl in X.
  rewrite FI in X. unfold touch_file in X.
  match type of X with context [nth_error ?fs ?f] => destruct (nth_error fs f) as [x|] eqn:F end; [|discriminate].
  injection X as X. subst s'. exists (o_fid o), (o_cnt o <? 2). split; [|split].
  - reflexivity.
  - apply (l_new _ _ R). simpl. eauto.
  - pose proof (co_cnt _ (l_core _ _ R) r o N) as CN. unfold count in CN.
    change (g_refs (ghost_of s)) with (refs s) in CN. fold (refs_to s r) in CN.
    apply refs_in in IR. rewrite CN. rewrite Nat.ltb_lt. lia.
Qed.
Print Assumptions C95_warning.

(** * Files *)

(** The count of requests in a file is the number of requests made on it less
    those released; ~file reports what it is then. *)
Theorem C95_nref : forall k ns nc s,
  reachable k ns nc s ->
  (forall f x, nth_error (st_files s) f = Some x ->
     f_nref x + times (is_release_of f) (st_log s) = times (is_new_on f) (st_log s)) /\
  (forall f n l1 l2, st_log s = l1 ++ EDestroy f n :: l2 ->
     n + times (is_release_of f) l2 = times (is_new_on f) l2).
Proof.
  intros k ns nc s R. apply reachable_linv in R. split.
  - intros f x N. apply (proj1 (l_bal _ _ R)). auto.
  - intros f n l1 l2 E. apply (proj1 (l_seen _ _ R f n l1 l2 E)).
Qed.
Print Assumptions C95_nref.

(** After wait(), or cancel() with true, the request has let go of its file. *)
Theorem C95_settled_released : forall k ns nc s r,
  reachable k ns nc s -> settled_in (st_log s) r ->
  exists o, nth_error (st_objs s) r = Some o /\ o_state o = READY2DIE /\ o_file o = None.
Proof.
  intros k ns nc s r R I. apply reachable_linv in R. destruct (l_settled _ _ R _ I) as (o & N & RD).
  exists o. split; auto. split; auto. simpl in N.
  destruct (in_dec Nat.eq_dec r (map fst (own s))) as [J | J].
  - apply in_map_iff in J. destruct J as ((y & p) & Y & J). simpl in Y. subst y.
    pose proof (co_ok _ (l_core _ _ R) _ _ _ J N) as PK. destruct p; simpl in PK; destruct PK; congruence.
  - destruct (co_rest _ (l_core _ _ R) _ _ N J) as [(_ & Y) | (_ & _ & Y & _)]; congruence.
Qed.
Print Assumptions C95_settled_released.

(** A destroyed file is touched only if it had requests when it was destroyed (then
    ~file wrote its message) or was given requests later. *)
Theorem C95_file_safe : forall k ns nc s f,
  reachable k ns nc s -> In (EBadFile f) (st_log s) -> misused (st_log s) f.
Proof. intros. apply reachable_linv in H. apply (proj2 (l_safe _ _ H)). auto. Qed.
Print Assumptions C95_file_safe.

(** So it is safe to destroy a file after waiting for all its requests. *)
Theorem C95_careful_file_safe : forall k ns nc s f,
  reachable k ns nc s ->
  (forall l1 l2 n, st_log s = l1 ++ EDestroy f n :: l2 ->
     (forall c r, In (ENewReq c r f) l2 -> settled_in l2 r) /\
     (forall c r, ~ In (ENewReq c r f) l1)) ->
  ~ In (EBadFile f) (st_log s) /\ forall n, In (EDestroy f n) (st_log s) -> n = 0.
Proof.
  intros k ns nc s f R H.
  assert (Z : forall n, In (EDestroy f n) (st_log s) -> n = 0).
  { intros n I. apply in_split in I. destruct I as (l1 & l2 & E). apply reachable_linv in R.
    apply (proj2 (l_seen _ _ R f n l1 l2 E)). apply (H _ _ _ E). }
  split; auto. intros I. destruct (C95_file_safe _ _ _ _ _ R I) as [(n & P & J) | (l1 & l2 & c & r & n & E & J)].
  - apply Z in J. lia.
  - apply in_split in J. destruct J as (m1 & m2 & M). subst l2.
    destruct (H (l1 ++ ENewReq c r f :: m1) m2 n) as (_ & Q).
    + rewrite E, <- app_assoc. auto.
    + apply (Q c r). apply in_or_app. simpl. auto.
Qed.
Print Assumptions C95_careful_file_safe.

(** And the message of ~file is never a false alarm: if it is destroyed with
    requests left, they touch it before they are finished. *)
Theorem C95_early_destroy_touched : forall k ns nc s f n,
  reachable k ns nc s -> In (EDestroy f n) (st_log s) -> 0 < n ->
  (forall r, created_on s r f -> settled_in (st_log s) r) -> In (EBadFile f) (st_log s).
Proof.
  intros k ns nc s f n R I P Q.
  assert (NR : exists x, nth_error (st_files s) f = Some x /\ f_nref x = 0).
  { pose proof (reachable_linv _ _ _ _ R) as L. destruct (nth_error (st_files s) f) as [x|] eqn:N.
    - exists x. split; auto. rewrite (l_nref _ _ L f x N). apply filter_none_conv. intros r o X.
      unfold on_file. destruct (o_file o) as [g|] eqn:F; auto. destruct (Nat.eqb_spec g f); auto. subst g.
      exfalso. simpl in X.
      assert (FI : o_fid o = f).
      { destruct (in_dec Nat.eq_dec r (map fst (own s))) as [J | J].
        - apply in_map_iff in J. destruct J as ((y & p) & Y & J). simpl in Y. subst y.
          pose proof (co_ok _ (l_core _ _ L) _ _ _ J X) as PK. destruct p; simpl in PK; destruct PK; congruence.
        - destruct (co_rest _ (l_core _ _ L) _ _ X J) as [(_ & Y) | (_ & _ & _ & Y)]; congruence. }
      assert (C : created_on s r f) by (apply (l_new _ _ L); simpl; eauto).
      apply Q in C. destruct (C95_settled_released _ _ _ _ _ R C) as (o2 & N2 & _ & F2). congruence.
    - apply nth_error_None in N. apply (proj2 (l_dest _ _ L)) in I. simpl in I. lia. }
  destruct NR as (x & N & Z). apply reachable_linv in R.
  apply in_split in I. destruct I as (l1 & l2 & E).
  pose proof (proj1 (l_bal _ _ R) f x N) as B. simpl in B. rewrite Z, E in B.
  pose proof (proj1 (l_seen _ _ R f n l1 l2 E)) as S1.
  unfold times in *. rewrite !filter_app in B. simpl in B. rewrite !app_length in B.
  assert (T : 0 < times (is_release_of f) l1) by (unfold times; lia).
  apply times_in in T. destruct T as (e & I & PE). destruct e; try discriminate. simpl in PE.
  apply Nat.eqb_eq in PE. subst f0. apply in_split in I. destruct I as (m1 & m2 & M). subst l1.
  rewrite E. assert (E' : g_log (ghost_of s) = m1 ++ ERelease r f :: (m2 ++ EDestroy f n :: l2)).
  { simpl. rewrite E, <- app_assoc. auto. }
  assert (J := l_late _ _ R r f n _ _ E' ltac:(apply in_or_app; simpl; auto)).
  rewrite <- app_assoc. apply in_or_app. right. simpl. right. auto.
Qed.
Print Assumptions C95_early_destroy_touched.

(** * Progress *)

(** A server that is doing something can always go on. *)
Theorem C95_server_progress : forall k ns nc s i v,
  reachable k ns nc s -> nth_error (st_servers s) i = Some v -> sv_pc v <> SvIdle ->
  exists s', exec k (AServer i None) s = Some s'.
Proof.
  intros k ns nc s i v R V PC. apply reachable_linv in R.
  assert (OB : forall r, In r (spc_refs (sv_pc v)) -> exists o, nth_error (st_objs s) r = Some o).
  { intros r I. assert (IR : In r (g_refs (ghost_of s))).
    { simpl. unfold refs. rewrite !in_app_iff, !in_flat_map. right. right. left. exists v.
      split; [eapply nth_error_In; eauto|]. unfold server_refs. rewrite in_app_iff. auto. }
    apply (co_dom _ (l_core _ _ R)) in IR. simpl in IR.
    destruct (nth_error (st_objs s) r) eqn:N; eauto. apply nth_error_None in N. lia. }
  assert (FI : forall r o f, nth_error (st_objs s) r = Some o -> o_file o = Some f ->
     exists x, nth_error (st_files s) f = Some x).
  { intros r o f N F. pose proof (l_dom _ _ R r o f N F) as L. simpl in L.
    destruct (nth_error (st_files s) f) eqn:X; eauto. apply nth_error_None in X. lia. }
  simpl. unfold server_step. rewrite V.
  assert (EM : forall o r t, st_files (if o_freed o then emit (EBadReq r) t else t) = st_files t) by
    (intros o r t; destruct (o_freed o); auto).
  assert (EO : forall o r t, st_objs (if o_freed o then emit (EBadReq r) t else t) = st_objs t) by
    (intros o r t; destruct (o_freed o); auto).
  destruct (sv_pc v) as [|r|r st rest|r rest|todo done|todo]; [congruence| | | | |].
  - destruct (OB r (or_introl eq_refl)) as (o & N). unfold touch. rewrite N.
    destruct (o_file o) as [f|] eqn:F; [|eauto]. destruct (FI _ _ _ N F) as (x & X).
    unfold touch_file. rewrite EM, X. eauto.
  - destruct (OB r (or_introl eq_refl)) as (o & N). unfold complete, touch. rewrite N.
    assert (U : forall t, st_files t = st_files s -> exists s1, use_file r o t = Some s1).
    { intros t T. unfold use_file. destruct (o_file o) as [f|] eqn:F; [|eauto].
      destruct (FI _ _ _ N F) as (x & X). unfold touch_file. rewrite T, X. eauto. }
    assert (RL : forall t, st_files t = st_files s -> exists s1, release true r o t = Some s1).
    { intros t T. unfold release. destruct (o_file o) as [f|] eqn:F; [|eauto].
      destruct (FI _ _ _ N F) as (x & X). unfold touch_file. rewrite T, X. eauto. }
    destruct st; try (eexists; reflexivity).
    + destruct (U _ (EM o r s)) as (s1 & E). rewrite E. eauto.
    + destruct (RL _ (EM o r s)) as (s1 & E). rewrite E. eauto.
  - destruct (OB r (or_introl eq_refl)) as (o & N). destruct k.
    + unfold dec, touch. rewrite N. destruct (o_cnt (with_cnt (o_cnt o - 1) o) =? 0); eauto.
    + unfold dec_bare, touch. rewrite N. destruct (o_cnt (with_cnt (o_cnt o - 1) o) =? 0); eauto.
  - destruct todo as [|r todo]; [eauto|].
    destruct (OB r) as (o & N); [simpl; rewrite !in_app_iff; simpl; auto|].
    unfold touch. rewrite N. unfold use_file.
    assert (IN : forall t, st_objs t = st_objs s -> exists s1, inc r t = Some s1).
    { intros t T. unfold inc, touch. rewrite T, N. eauto. }
    destruct (o_file o) as [f|] eqn:F.
    + destruct (FI _ _ _ N F) as (x & X). unfold touch_file. rewrite EM, X.
      match goal with |- context [inc r ?t] => destruct (IN t) as (s1 & E) end.
      { destruct (f_alive x); simpl; apply EO. }
      rewrite E. eauto.
    + match goal with |- context [inc r ?t] => destruct (IN t) as (s1 & E) end.
      { simpl. apply EO. }
      rewrite E. eauto.
  - destruct todo as [|r todo]; [eauto|].
    destruct (OB r (or_introl eq_refl)) as (o & N). unfold dec, touch. rewrite N.
    destruct (o_cnt (with_cnt (o_cnt o - 1) o) =? 0); eauto.
Qed.
Print Assumptions C95_server_progress.

(** * What is not so *)

Definition log_of (k : kind) (ns nc : nat) (acts : list action) : option (list event) :=
  match run k acts (init ns nc) with Some s => Some (st_log s) | None => None end.

Lemma log_of_reach : forall k ns nc acts l, log_of k ns nc acts = Some l ->
  exists s, reachable k ns nc s /\ st_log s = l.
Proof.
  intros k ns nc acts l H. unfold log_of in H. destruct (run k acts (init ns nc)) as [s|] eqn:E; [|discriminate].
  exists s. split; [exists acts; auto | congruence].
Qed.

Definition served (i : nat) (n : nat) : list action := repeat (AServer i None) n.

(** poll() with true is not enough to destroy the file: the worker still has to
    give it back. *)
Definition poll_trace : list action :=
  [ANewFile; ANew 0 0; AClient 0 None; APop 0 0] ++ served 0 2 ++ [APoll 0 0; ADestroy 0] ++ served 0 6.
Lemma poll_run : log_of Serving 1 1 poll_trace =
  Some [ERelease 0 0; EBadFile 0; EHandler 0; EDestroy 0 1; EPoll 0 0 true; EServe 0 0 false; ENewReq 0 0 0].
Proof. vm_compute. reflexivity. Qed.

Theorem C95_poll_refuted : exists s,
  reachable Serving 1 1 s /\ In (EBadFile 0) (st_log s) /\
  exists l1 l2 n, st_log s = l1 ++ EDestroy 0 n :: l2 /\ In (EPoll 0 0 true) l2 /\
    forall c r, In (ENewReq c r 0) (st_log s) -> r = 0.
Proof.
  destruct (log_of_reach _ _ _ _ _ poll_run) as (s & R & L). exists s. rewrite L.
  split; [auto|]. split; [simpl; auto|].
  eexists [_; _; _], _, _. split; [reflexivity|]. split; [simpl; auto|].
  intros c r [I | [I | [I | [I | [I | [I | [I | []]]]]]]]; congruence.
Qed.
Print Assumptions C95_poll_refuted.

(** AIO: a program that does not keep its pointer loses the request object. *)
Definition aio_trace : list action :=
  [ANewFile; ANew 0 0; AClient 0 None; ATake 0 1] ++ served 0 4 ++ [ASubmit 0 1; ADrop 0 0; AReap 0 [0]] ++
  served 0 8.
Lemma aio_run : log_of Aio 1 1 aio_trace = Some [ELast 0; ERelease 0 0; EHandler 0; ENewReq 0 0 0].
Proof. vm_compute. reflexivity. Qed.

Theorem C95_aio_drop_refuted : exists s,
  reachable Aio 1 1 s /\ created s 0 /\ refs s = [] /\ ~ freed s 0.
Proof.
  assert (E : exists s, run Aio aio_trace (init 1 1) = Some s /\ refs s = [] /\
     st_log s = [ELast 0; ERelease 0 0; EHandler 0; ENewReq 0 0 0]).
  { eexists. split; [vm_compute; reflexivity|]. split; reflexivity. }
  destruct E as (s & E & F & L). exists s. split; [exists aio_trace; auto|]. split; [|split; auto].
  - exists 0, 0. rewrite L. simpl. auto 10.
  - intros (st & I). rewrite L in I. simpl in I. intuition discriminate.
Qed.
Print Assumptions C95_aio_drop_refuted.

(** A request that add_request refuses is deleted in its first state and never
    gives its file back. *)
Definition reject_trace : list action := [ANewFile; AStop; ANew 0 0; AClient 0 None; ADestroy 0].
Lemma reject_run : log_of Serving 1 1 reject_trace =
  Some [EDestroy 0 1; EReject 0 0 0; EFree 0 OP; ENewReq 0 0 0].
Proof. vm_compute. reflexivity. Qed.

Theorem C95_reject_refuted : exists s,
  reachable Serving 1 1 s /\ In (EFree 0 OP) (st_log s) /\ In (EDestroy 0 1) (st_log s) /\ refs s = [].
Proof.
  assert (E : exists s, run Serving reject_trace (init 1 1) = Some s /\ refs s = [] /\
     st_log s = [EDestroy 0 1; EReject 0 0 0; EFree 0 OP; ENewReq 0 0 0]).
  { eexists. split; [vm_compute; reflexivity|]. split; reflexivity. }
  destruct E as (s & E & F & L). exists s. rewrite L. split; [exists reject_trace; auto|]. simpl. auto.
Qed.
Print Assumptions C95_reject_refuted.

(** cancel() tests file_ and uses it later; the request may be finished between. *)
Definition cancel_trace : list action :=
  [ANewFile; ANew 0 0; AClient 0 None; APop 0 0; ACancel 0 0; AClient 0 None] ++ served 0 6 ++ [AClient 0 None].
Lemma cancel_run : log_of Serving 1 1 cancel_trace =
  Some [ENull 0; ERelease 0 0; EHandler 0; EServe 0 0 false; ENewReq 0 0 0].
Proof. vm_compute. reflexivity. Qed.

Theorem C95_cancel_null_refuted : exists s, reachable Serving 1 1 s /\ In (ENull 0) (st_log s).
Proof.
  destruct (log_of_reach _ _ _ _ _ cancel_run) as (s & R & L). exists s. rewrite L. simpl. auto.
Qed.
Print Assumptions C95_cancel_null_refuted.

(** * A case: two clients share a request, the handler gives one more pointer, a
    second request is cancelled; then everything is given up and the file is
    destroyed. *)
Definition case_trace : list action :=
  [ANewFile; ANew 0 0; AClient 0 None; ANew 1 0; AClient 1 None; ACopy 0 0 1; APop 0 0] ++
  served 0 2 ++ [AServer 0 (Some 1)] ++ served 0 5 ++
  [ACancel 1 1; AClient 1 None; AClient 1 None; AClient 1 None] ++ repeat (AClient 1 None) 7 ++
  [AWait 0 0; ADrop 0 0; ADrop 1 0; ADestroy 0; ADrop 1 0; ADrop 1 1].

Example C95_case :
  exists s, run Serving case_trace (init 1 2) = Some s /\ refs s = [] /\
  st_log s = [EFree 1 READY2DIE; EFree 0 READY2DIE; EDestroy 0 0; EWaited 0 0; ECancelled 1 1 (Some true);
              ERelease 1 0; EHandler 1; ERelease 0 0; EHandler 0; EServe 0 0 false;
              ENewReq 1 1 0; ENewReq 0 0 0].
Proof. eexists. split; [vm_compute; reflexivity|]. split; reflexivity. Qed.

(** The hypotheses of the theorem on careful programs hold there. *)
Example C95_case_careful : forall s, run Serving case_trace (init 1 2) = Some s ->
  reachable Serving 1 2 s /\ created s 0 /\ created s 1 /\
  forall l1 l2 n, st_log s = l1 ++ EDestroy 0 n :: l2 ->
     (forall c r, In (ENewReq c r 0) l2 -> settled_in l2 r) /\
     (forall c r, ~ In (ENewReq c r 0) l1).
Proof.
  intros s E. split; [exists case_trace; auto|].
  destruct C95_case as (s' & E' & _ & L). assert (s' = s) by congruence. subst s'.
  split; [|split].
  - exists 0, 0. rewrite L. simpl. auto 20.
  - exists 1, 0. rewrite L. simpl. auto 20.
  - intros l1 l2 n M. rewrite L in M. clear E E' L.
    destruct l1 as [|e1 l1]; [discriminate|]. injection M as M1 M. subst e1.
    destruct l1 as [|e1 l1]; [discriminate|]. injection M as M1 M. subst e1.
    destruct l1 as [|e1 l1].
    + injection M as M1 M. subst. split.
      * intros c r I. simpl in I.
        destruct I as [I | [I | [I | [I | [I | [I | [I | [I | [I | []]]]]]]]]]; try discriminate;
          injection I as I1 I2; subst.
        -- exists 1. right. simpl. auto.
        -- exists 0. left. simpl. auto.
      * intros c r [I | [I | []]]; discriminate.
    + exfalso. injection M as M1 M.
      repeat (destruct l1 as [|?e l1]; [discriminate | injection M as ? M]); destruct l1; discriminate.
Qed.

(** A served request whose only pointer is the worker's. *)
Definition warn_trace : list action := [ANewFile; ANew 0 0; AClient 0 None; ADrop 0 0; APop 0 0].
Example C95_case_warning :
  exists s, run Serving warn_trace (init 1 1) = Some s /\ refs_to s 0 = 1 /\
  log_of Serving 1 1 (warn_trace ++ served 0 8) =
    Some [EFree 0 READY2DIE; ERelease 0 0; EHandler 0; EServe 0 0 true; ENewReq 0 0 0].
Proof. eexists. split; [vm_compute; reflexivity|]. split; vm_compute; reflexivity. Qed.

(** An early destroyed file whose requests are all waited for. *)
Example C95_case_early :
  log_of Serving 1 1 ([ANewFile; ANew 0 0; AClient 0 None; ADestroy 0; APop 0 0] ++ served 0 8 ++ [AWait 0 0]) =
  Some [EWaited 0 0; ERelease 0 0; EBadFile 0; EHandler 0; EServe 0 0 false; EBadFile 0; EDestroy 0 1; ENewReq 0 0 0].
Proof. vm_compute. reflexivity. Qed.
