(** Lifetime of requests and files: the steps of the model as primitive effects. *)
From Coq Require Import List Bool PeanoNat Lia Permutation.
From Verif Require Import LifeModel LifeSpec LifeProofs.
Import ListNotations.

Definition abs (s : state) (R : list nat) (O : list (nat * ph)) : ghost :=
  mk_g (st_objs s) (st_files s) (st_log s) R O.

(** Everything but objects, files and log is the same. *)
Definition frame (s s' : state) : Prop :=
  st_queue s' = st_queue s /\ st_kern s' = st_kern s /\ st_servers s' = st_servers s /\
  st_clients s' = st_clients s /\ st_running s' = st_running s.

Lemma frame_refl : forall s, frame s s.
Proof. unfold frame. auto. Qed.
Lemma frame_trans : forall a b c, frame a b -> frame b c -> frame a c.
Proof. unfold frame. intuition congruence. Qed.

Lemma touch_live : forall s r R O, core (abs s R O) -> In r R ->
  exists o, nth_error (st_objs s) r = Some o /\ o_freed o = false /\ touch r s = Some (o, s).
Proof.
  intros. destruct (live_obj _ _ H H0) as (o & E & F). simpl in E.
  exists o. split; auto. split; auto. unfold touch. rewrite E, F. auto.
Qed.

Lemma inc_prims : forall k s s' r R O, core (abs s R O) -> In r R -> ~ In (r, PNew) O ->
  inc r s = Some s' -> prims k (abs s R O) (abs s' (r :: R) O) /\ frame s s'.
Proof.
  intros. destruct (touch_live _ _ _ _ H H0) as (o & E & F & T).
  unfold inc in H2. rewrite T in H2. injection H2 as H2. subst s'.
  split; [|unfold frame; simpl; auto]. apply prims_one. apply P_inc; auto.
Qed.

Lemma push_prims : forall k s s' r R O, core (abs s R ((r, PNew) :: O)) ->
  inc r s = Some s' -> prims k (abs s R ((r, PNew) :: O)) (abs s' (r :: R) ((r, PWait) :: O)) /\ frame s s'.
Proof.
  intros. assert (I : In r R) by (eapply (co_sub _ H); simpl; eauto).
  destruct (touch_live _ _ _ _ H I) as (o & E & F & T).
  unfold inc in H0. rewrite T in H0. injection H0 as H0. subst s'.
  split; [|unfold frame; simpl; auto]. apply prims_one. apply P_push; auto.
Qed.

Lemma dec_prims : forall k s s' r R O, core (abs s (r :: R) O) -> (forall p, In (r, p) O -> In r R) ->
  dec r s = Some s' -> prims k (abs s (r :: R) O) (abs s' R O) /\ frame s s'.
Proof.
  intros. destruct (touch_live _ r _ _ H (or_introl eq_refl)) as (o & E & F & T).
  unfold dec in H1. rewrite T in H1. cbn [o_cnt with_cnt] in H1.
  destruct (Nat.eqb_spec (o_cnt o - 1) 0) as [Z | Z]; injection H1 as H1; subst s'.
  - split; [|unfold frame; simpl; auto]. apply prims_one. apply (P_free k _ _ _ _ _ r o); auto.
  - split; [|unfold frame; simpl; auto]. apply prims_one. apply (P_dec k _ _ _ _ _ r o); auto.
    intros I. pose proof (co_new _ H _ I) as H1. cbn [abs g_refs] in H1. rewrite count_cons in H1.
    destruct (Nat.eq_dec r r); [|congruence]. apply H0 in I. apply count_in in I. lia.
Qed.

Lemma dec_bare_prims : forall k s s' r R O, k = Aio -> core (abs s (r :: R) O) ->
  (forall p, In (r, p) O -> In r R) ->
  dec_bare r s = Some s' -> prims k (abs s (r :: R) O) (abs s' R O) /\ frame s s'.
Proof.
  intros k s s' r R O K H H0 H1. destruct (touch_live _ r _ _ H (or_introl eq_refl)) as (o & E & F & T).
  unfold dec_bare in H1. rewrite T in H1. cbn [o_cnt with_cnt] in H1.
  destruct (Nat.eqb_spec (o_cnt o - 1) 0) as [Z | Z]; injection H1 as H1; subst s'.
  - split; [|unfold frame; simpl; auto]. apply prims_one. apply (P_last k _ _ _ _ _ r o); auto.
  - split; [|unfold frame; simpl; auto]. apply prims_one. apply (P_dec k _ _ _ _ _ r o); auto.
    intros I. pose proof (co_new _ H _ I) as H1. cbn [abs g_refs] in H1. rewrite count_cons in H1.
    destruct (Nat.eq_dec r r); [|congruence]. apply H0 in I. apply count_in in I. lia.
Qed.

Lemma touch_file_eq : forall f s x s1, touch_file f s = Some (x, s1) ->
  nth_error (st_files s) f = Some x /\ frame s s1 /\ st_objs s1 = st_objs s /\ st_files s1 = st_files s /\
  st_log s1 = with_alive f x (st_log s).
Proof.
  unfold touch_file, with_alive. intros. destruct (nth_error (st_files s) f); try discriminate.
  injection H as H1 H2. subst. destruct (f_alive x); repeat split.
Qed.

Lemma use_prims : forall k s s1 r o f x R O, nth_error (st_objs s) r = Some o -> o_file o = Some f ->
  touch_file f s = Some (x, s1) -> prims k (abs s R O) (abs s1 R O) /\ frame s s1.
Proof.
  intros. apply touch_file_eq in H1. destruct H1 as (A & B & C & D & E). split; auto.
  unfold abs. rewrite C, D, E. apply prims_one. eapply P_use; eauto.
Qed.

Lemma use_file_prims : forall k s s1 r o R O, nth_error (st_objs s) r = Some o -> o_file o <> None ->
  use_file r o s = Some s1 -> prims k (abs s R O) (abs s1 R O) /\ frame s s1.
Proof.
  unfold use_file. intros. destruct (o_file o) eqn:F; [|congruence].
  destruct (touch_file n s) as [[x s2]|] eqn:T; try discriminate. injection H1 as H1. subst.
  eapply use_prims; eauto.
Qed.

Lemma log_prims : forall k s e R O, benign e = true -> prims k (abs s R O) (abs (emit e s) R O).
Proof. intros. apply prims_one. apply P_log. auto. Qed.

Lemma perm_prims : forall k s s' R R' O O', st_objs s' = st_objs s -> st_files s' = st_files s ->
  st_log s' = st_log s -> Permutation R R' -> Permutation O O' ->
  prims k (abs s R O) (abs s' R' O').
Proof. intros. unfold abs. rewrite H, H0, H1. apply prims_one. apply P_perm; auto. Qed.

(** What completing a request does. [h]: the client that the handler gave a
    reference to. *)
Definition given (h : option nat) (st : stage) (r : nat) : list nat :=
  match st, h with StHandler, Some _ => [r] | _, _ => [] end.

Definition next_own (r : nat) (st : stage) : list (nat * ph) :=
  match next_stage st with Some st' => stage_own r st' | None => [] end.

(** The clients after a handler gave [r] to client [h]. *)
Definition clients_given (h : option nat) (st : stage) (r : nat) (cls cls' : list client) : Prop :=
  match st, h with
  | StHandler, Some d => exists cl, nth_error cls d = Some cl /\
      cls' = upd d (mk_client (r :: cl_hold cl) (cl_pc cl)) cls
  | _, _ => cls' = cls
  end.

Definition frame_cl (s s' : state) : Prop :=
  st_queue s' = st_queue s /\ st_kern s' = st_kern s /\ st_servers s' = st_servers s /\
  st_running s' = st_running s.

Lemma frame_frame_cl : forall s s', frame s s' -> frame_cl s s' /\ st_clients s' = st_clients s.
Proof. unfold frame, frame_cl. tauto. Qed.

Lemma prims_core_abs : forall k s R O s' R' O', core (abs s R O) -> prims k (abs s R O) (abs s' R' O') ->
  core (abs s' R' O').
Proof. intros. eapply prims_core; eauto. Qed.

Lemma give_prims : forall k s s' r h R O, core (abs s R O) -> In r R -> ~ In (r, PNew) O ->
  give r h s = Some s' ->
  prims k (abs s R O) (abs s' (r :: R) O) /\ frame_cl s s' /\
  exists cl, nth_error (st_clients s) h = Some cl /\
    st_clients s' = upd h (mk_client (r :: cl_hold cl) (cl_pc cl)) (st_clients s).
Proof.
  unfold give. intros. destruct (nth_error (st_clients s) h) as [cl|] eqn:E; try discriminate.
  destruct (inc r s) as [s1|] eqn:I; try discriminate. injection H2 as H2. subst s'.
  destruct (inc_prims k _ _ _ _ _ H H0 H1 I) as (P & F).
  split; [exact P|]. destruct F as (F1 & F2 & F3 & F4 & F5). split.
  - unfold frame_cl. simpl. auto.
  - exists cl. split; auto. simpl. rewrite F4. auto.
Qed.

Lemma complete_prims : forall k t s s' r st h R O, core (abs s R (stage_own r st ++ O)) -> In r R ->
  complete t r st h s = Some s' ->
  prims k (abs s R (stage_own r st ++ O)) (abs s' (given h st r ++ R) (next_own r st ++ O)) /\
  frame_cl s s' /\ clients_given h st r (st_clients s) (st_clients s').
Proof.
  intros k t s s' r st h R O C I E.
  destruct (touch_live _ _ _ _ C I) as (o & N & F & T).
  unfold complete in E. rewrite T in E.
  assert (FR : forall a, frame_cl a a) by (unfold frame_cl; auto).
  destruct st; unfold given, next_own; cbn [next_stage stage_own app] in *.
  - (* stats *)
    assert (K : phase_ok PWait o) by (eapply (co_ok _ C); simpl; eauto). destruct K as (K1 & K2).
    destruct (use_file_prims k s s' r o R ((r, PWait) :: O)) as (P & Q); auto. { congruence. }
    apply frame_frame_cl in Q. destruct h; simpl; tauto.
  - (* done *)
    injection E as E. subst s'. split; [|destruct h; unfold frame_cl; simpl; auto 8].
    destruct h; apply prims_one; apply P_done; auto.
  - (* handler *)
    destruct h as [d|].
    + assert (NP : ~ In (r, PNew) ((r, PDone) :: O)).
      { intros [X | X]; [discriminate|]. pose proof (co_nodup _ C) as ND. simpl in ND. inversion ND; subst.
        apply H1. apply (in_map fst) in X. auto. }
      pose proof (log_prims k s (EHandler r) R ((r, PDone) :: O) eq_refl) as P1.
      pose proof (prims_core_abs _ _ _ _ _ _ _ C P1) as C1.
      destruct (give_prims k _ _ _ _ _ _ C1 I NP E) as (P2 & F2 & cl & G1 & G2).
      split; [eapply prims_trans; eauto|]. split; [exact F2|]. simpl. exists cl. auto.
    + injection E as E. subst s'. split; [|unfold frame_cl; simpl; auto 8]. apply log_prims. auto.
  - (* notify *)
    injection E as E. subst s'. split; [|destruct h; unfold frame_cl; simpl; auto 8]. destruct h; apply prims_refl.
  - (* release *)
    assert (K : phase_ok PDone o) by (eapply (co_ok _ C); simpl; eauto). destruct K as (K1 & K2).
    unfold release in E. rewrite K2 in E.
    destruct (touch_file (o_fid o) s) as [[x s1]|] eqn:TF; try discriminate.
    injection E as E. subst s'. apply touch_file_eq in TF. destruct TF as (A & B & D & G & L).
    apply frame_frame_cl in B. destruct B as (B1 & B2).
    assert (P : prims k (abs s R ((r, PDone) :: O))
       (abs (emit (ERelease r (o_fid o))
              (set_objs (upd r (with_file None o) (st_objs s1))
                (set_files (upd (o_fid o) (mk_fobj (f_nref x - 1) (f_alive x)) (st_files s1)) s1)))
            R ((r, PRel) :: O))).
    { unfold abs. simpl. rewrite D, G, L. apply prims_one. apply P_release; auto. }
    destruct h; simpl; auto.
  - (* ready *)
    injection E as E. subst s'. split; [|destruct h; unfold frame_cl; simpl; auto 8].
    destruct h; apply prims_one; apply P_ready; auto.
  - injection E as E. subst s'. split; [|destruct h; unfold frame_cl; simpl; auto 8]. destruct h; apply prims_refl.
Qed.
