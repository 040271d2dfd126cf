(** The pools on the queues are the pools on the I/O system of PoolModel.v. *)

From Coq Require Import ZArith List Bool Arith Lia Permutation Sorting.Sorted.
From Verif Require QueueModel.
From Verif Require Import PoolModel PoolSpec PoolProofs PoolQModel.
Import ListNotations.

Section Ref.
Variable kinds : nat -> QueueModel.kind.
Variable qid : nat -> nat.

Definition owns (l : list entry) : list nat := flat_map (fun e => match e with Some i => [i] | None => [] end) l.

Lemma in_owns : forall l i, In i (owns l) <-> In (Some i) l.
Proof.
  unfold owns. intros l i. rewrite in_flat_map. split.
  - intros ([j|] & A & B); cbn in B; [destruct B as [->|[]]; auto|contradiction].
  - intros A. exists (Some i). cbn. auto.
Qed.

Lemma owns_app : forall a b, owns (a ++ b) = owns a ++ owns b.
Proof. intros. unfold owns. apply flat_map_app. Qed.

Definition home (r : req) : nat := qid (b_storage (q_bid r)).
Definition side (r : req) : bool := QueueModel.which (kinds (home r)) (op_of (q_write r)).

Record qinv (x : qio) : Prop := mk_qinv {
  v_in : forall n w i, In (Some i) (lst w (q_qs x n)) ->
    exists r, nth_error (qreqs x) i = Some r /\ q_st r = Pending /\ home r = n /\ side r = w;
  v_pend : forall i r, nth_error (qreqs x) i = Some r -> q_st r = Pending ->
    In (Some i) (lst (side r) (q_qs x (home r)));
  v_sort : forall n w, StronglySorted lt (owns (lst w (q_qs x n)));
  v_cur : forall n i, d_cur (q_qs x n) = Some (Some i) ->
    exists r, nth_error (qreqs x) i = Some r /\ q_st r = Running /\ home r = n;
  v_run : forall i r, nth_error (qreqs x) i = Some r -> q_st r = Running ->
    d_cur (q_qs x (home r)) = Some (Some i)
}.

Lemma set_q_same : forall f n q, set_q f n q n = q.
Proof. intros. unfold set_q. rewrite Nat.eqb_refl. auto. Qed.
Lemma set_q_other : forall f n q m, m <> n -> set_q f n q m = f m.
Proof. intros. unfold set_q. destruct (Nat.eqb_spec m n); auto. contradiction. Qed.
Lemma lst_set_lst : forall w w' l q, lst w (set_lst w' l q) = if Bool.eqb w w' then l else lst w q.
Proof. intros [|] [|] l q; reflexivity. Qed.
Lemma cur_set_lst : forall w l q, d_cur (set_lst w l q) = d_cur q.
Proof. intros [|]; reflexivity. Qed.
Lemma phase_set_lst : forall w l q, d_phase (set_lst w l q) = d_phase q.
Proof. intros [|]; reflexivity. Qed.
Lemma lst_set_worker : forall w c p q, lst w (set_worker c p q) = lst w q.
Proof. intros [|]; reflexivity. Qed.

Lemma sorted_snoc : forall l k, StronglySorted lt l -> (forall i, In i l -> i < k) -> StronglySorted lt (l ++ [k]).
Proof.
  induction l as [|a l IH]; cbn; intros k S0 H.
  - constructor; constructor.
  - inversion S0; subst. constructor.
    + apply IH; auto.
    + apply Forall_app. split; auto.
Qed.

Lemma sorted_sub : forall (f : entry -> bool) l, StronglySorted lt (owns l) -> StronglySorted lt (owns (filter f l)).
Proof.
  intros f. induction l as [|[a|] l IH]; cbn; intros S0; auto.
  - inversion S0; subst. destruct (f (Some a)); cbn; auto. constructor; auto.
    rewrite Forall_forall in *. intros i Hi. apply H2. apply in_owns. apply in_owns in Hi.
    apply filter_In in Hi. tauto.
  - destruct (f None); cbn; auto.
Qed.

Lemma qinv_init : forall m disk, qinv (MkQ (MkIO m disk []) (fun _ => q_new)).
Proof.
  intros m disk. constructor; cbn.
  - intros n [|] i [].
  - intros i r H. destruct i; discriminate.
  - intros n [|]; constructor.
  - discriminate.
  - intros i r H. destruct i; discriminate.
Qed.

Lemma qinv_set : forall x b v, qinv x -> qinv (qset x b v).
Proof. intros x b v [A B C D E]. constructor; auto. Qed.

(** Changes of the queues that do not concern the requests of the pools. *)
Lemma qinv_queue : forall x n q', qinv x ->
  (forall w, owns (lst w q') = owns (lst w (q_qs x n))) ->
  (forall i, d_cur q' = Some (Some i) <-> d_cur (q_qs x n) = Some (Some i)) ->
  qinv (MkQ (q_io x) (set_q (q_qs x) n q')).
Proof.
  intros x n q' [A B C D E] L Cu. constructor; cbn [q_io q_qs qreqs]; unfold qreqs in *; cbn [q_io].
  - intros m w i H. destruct (Nat.eq_dec m n) as [->|Nm].
    + rewrite set_q_same in H. apply A. apply in_owns. rewrite <- L. apply in_owns. auto.
    + rewrite set_q_other in H; auto.
  - intros i r H P. specialize (B i r H P). destruct (Nat.eq_dec (home r) n) as [Em|Nm].
    + rewrite Em in *. rewrite set_q_same. apply in_owns. rewrite L. apply in_owns. auto.
    + rewrite set_q_other; auto.
  - intros m w. destruct (Nat.eq_dec m n) as [->|Nm].
    + rewrite set_q_same, L. auto.
    + rewrite set_q_other; auto.
  - intros m i H. destruct (Nat.eq_dec m n) as [->|Nm].
    + rewrite set_q_same in H. apply D. apply Cu. auto.
    + rewrite set_q_other in H; auto.
  - intros i r H P. specialize (E i r H P). destruct (Nat.eq_dec (home r) n) as [Em|Nm].
    + rewrite Em in *. rewrite set_q_same. apply Cu. auto.
    + rewrite set_q_other; auto.
Qed.

Lemma nth_app_new : forall {A} (l : list A) a i r, nth_error (l ++ [a]) i = Some r ->
  nth_error l i = Some r \/ (i = length l /\ r = a).
Proof.
  intros A l a i r H. destruct (Nat.lt_ge_cases i (length l)) as [L|L].
  - rewrite nth_error_app1 in H; auto.
  - rewrite nth_error_app2 in H; auto. right.
    destruct (i - length l) as [|k] eqn:E; cbn in H; [|destruct k; discriminate]. inversion H. split; auto. lia.
Qed.

Lemma qinv_post : forall x w b d, qinv x -> qinv (qpost kinds qid x w b d).
Proof.
  intros x w b d [A B C D E]. set (r0 := MkReq w b d Pending).
  assert (H0 : qid (b_storage d) = home r0) by reflexivity.
  assert (S0 : QueueModel.which (kinds (qid (b_storage d))) (op_of w) = side r0) by reflexivity.
  unfold qpost. rewrite S0, H0. constructor; unfold qreqs in *; cbn [q_io q_qs]; unfold post; cbn [io_reqs].
  - intros n wh i H.
    assert (G : In (Some i) (lst wh (q_qs x n)) \/ (i = length (io_reqs (q_io x)) /\ n = home r0 /\ wh = side r0)).
    { destruct (Nat.eq_dec n (home r0)) as [->|Nn].
      - rewrite set_q_same, lst_set_lst in H. destruct (Bool.eqb wh (side r0)) eqn:Q; auto.
        apply eqb_prop in Q. subst wh. apply in_app_iff in H. destruct H as [H|[H|[]]]; auto.
        inversion H. auto.
      - rewrite set_q_other in H; auto. }
    destruct G as [G|(-> & -> & ->)].
    + destruct (A n wh i G) as (r & R1 & R2 & R3). exists r. split; auto.
      rewrite nth_error_app1; auto. apply nth_error_Some. congruence.
    + exists r0. rewrite nth_error_app2, Nat.sub_diag; auto.
  - intros i r H P. apply nth_app_new in H. destruct H as [H|(-> & ->)].
    + specialize (B i r H P). destruct (Nat.eq_dec (home r) (home r0)) as [Em|Nm].
      * rewrite Em in *. rewrite set_q_same, lst_set_lst. destruct (Bool.eqb (side r) (side r0)) eqn:Q; auto.
        apply eqb_prop in Q. rewrite Q in *. apply in_app_iff. auto.
      * rewrite set_q_other; auto.
    + fold r0. rewrite set_q_same, lst_set_lst, eqb_reflx. apply in_app_iff. right. left. auto.
  - intros n wh. destruct (Nat.eq_dec n (home r0)) as [->|Nn].
    + rewrite set_q_same, lst_set_lst. destruct (Bool.eqb wh (side r0)) eqn:Q; auto.
      rewrite owns_app. cbn. apply sorted_snoc; auto. intros i Hi. apply in_owns in Hi.
      destruct (A _ _ i Hi) as (r & R1 & _). apply nth_error_Some. congruence.
    + rewrite set_q_other; auto.
  - intros n i H.
    assert (G : d_cur (q_qs x n) = Some (Some i)).
    { destruct (Nat.eq_dec n (home r0)) as [->|Nn].
      - rewrite set_q_same, cur_set_lst in H. auto.
      - rewrite set_q_other in H; auto. }
    destruct (D n i G) as (r & R1 & R2). exists r. split; auto.
    rewrite nth_error_app1; auto. apply nth_error_Some. congruence.
  - intros i r H P. apply nth_app_new in H. destruct H as [H|(-> & ->)]; [|discriminate].
    specialize (E i r H P). destruct (Nat.eq_dec (home r) (home r0)) as [Em|Nm].
    + rewrite Em in *. rewrite set_q_same, cur_set_lst. auto.
    + rewrite set_q_other; auto.
Qed.

(** Request [i] leaves its list, or its worker. *)
Lemma qinv_move : forall x i r t q' md, qinv x -> nth_error (qreqs x) i = Some r -> q_st r <> Finished ->
  t <> Pending ->
  (forall w j, In (Some j) (lst w q') <-> In (Some j) (lst w (q_qs x (home r))) /\ j <> i) ->
  (forall w, StronglySorted lt (owns (lst w q'))) ->
  (forall j, j <> i -> d_cur q' = Some (Some j) <-> d_cur (q_qs x (home r)) = Some (Some j)) ->
  (d_cur q' = Some (Some i) <-> t = Running) ->
  qinv (MkQ (MkIO (fst md) (snd md) (set_nth i (with_st r t) (io_reqs (q_io x)))) (set_q (q_qs x) (home r) q')).
Proof.
  intros x i r t q' md [A B C D E] Hi Hf Ht L S0 Cu Ci.
  assert (Hr : home (with_st r t) = home r) by reflexivity.
  assert (Nl : forall n w, In (Some i) (lst w (q_qs x n)) -> n = home r).
  { intros n w H. destruct (A n w i H) as (r' & R1 & _ & R3 & _). unfold qreqs in *. congruence. }
  assert (Nc : forall n, d_cur (q_qs x n) = Some (Some i) -> n = home r).
  { intros n H. destruct (D n i H) as (r' & R1 & _ & R3). unfold qreqs in *. congruence. }
  assert (At : forall j r', nth_error (set_nth i (with_st r t) (io_reqs (q_io x))) j = Some r' ->
    (j = i /\ r' = with_st r t) \/ (j <> i /\ nth_error (io_reqs (q_io x)) j = Some r')).
  { intros j r' H. destruct (Nat.eq_dec j i) as [->|Nj].
    - rewrite (set_nth_same _ _ _ r) in H; auto. inversion H. auto.
    - rewrite set_nth_other in H; auto. }
  assert (To : forall j, j <> i -> nth_error (set_nth i (with_st r t) (io_reqs (q_io x))) j = nth_error (io_reqs (q_io x)) j).
  { intros j Nj. apply set_nth_other. auto. }
  unfold qreqs in *. constructor; unfold qreqs; cbn [q_io q_qs io_reqs].
  - intros n w j H. assert (G : In (Some j) (lst w (q_qs x n)) /\ j <> i).
    { destruct (Nat.eq_dec n (home r)) as [->|Nn].
      - rewrite set_q_same in H. apply L. auto.
      - rewrite set_q_other in H; auto. split; auto. intros ->. apply Nn. eapply Nl; eauto. }
    destruct G as (G & Nj). destruct (A n w j G) as (r' & R). exists r'. rewrite To; auto.
  - intros j r' H P. apply At in H. destruct H as [(-> & ->)|(Nj & H)].
    + cbn in P. congruence.
    + specialize (B j r' H P). destruct (Nat.eq_dec (home r') (home r)) as [Em|Nm].
      * rewrite Em in *. rewrite set_q_same. apply L. auto.
      * rewrite set_q_other; auto.
  - intros n w. destruct (Nat.eq_dec n (home r)) as [->|Nn].
    + rewrite set_q_same. auto.
    + rewrite set_q_other; auto.
  - intros n j H. destruct (Nat.eq_dec j i) as [->|Nj].
    + assert (n = home r /\ t = Running).
      { destruct (Nat.eq_dec n (home r)) as [->|Nn].
        - rewrite set_q_same in H. split; auto. apply Ci. auto.
        - rewrite set_q_other in H; auto. exfalso. apply Nn. apply Nc. auto. }
      destruct H0 as (-> & ->). exists (with_st r Running). rewrite (set_nth_same _ _ _ r); auto.
    + assert (G : d_cur (q_qs x n) = Some (Some j)).
      { destruct (Nat.eq_dec n (home r)) as [->|Nn].
        - rewrite set_q_same in H. apply Cu; auto.
        - rewrite set_q_other in H; auto. }
      destruct (D n j G) as (r' & R). exists r'. rewrite To; auto.
  - intros j r' H P. apply At in H. destruct H as [(-> & ->)|(Nj & H)].
    + cbn in P. rewrite Hr, set_q_same. apply Ci. auto.
    + specialize (E j r' H P). destruct (Nat.eq_dec (home r') (home r)) as [Em|Nm].
      * rewrite Em in *. rewrite set_q_same. apply Cu; auto.
      * rewrite set_q_other; auto.
Qed.

Lemma is_req_spec : forall i e, is_req i e = true <-> e = Some i.
Proof.
  intros i [j|]; cbn; [rewrite Nat.eqb_eq|]; split; intros H; try discriminate; congruence.
Qed.

(** Cancelling is what PoolModel.v has for it. *)
Lemma qcancel_ref : forall x i, qinv x ->
  qinv (qcancel kinds qid x i) /\ q_io (qcancel kinds qid x i) = cancel (q_io x) i.
Proof.
  intros x i V. unfold qcancel, cancel. unfold qreqs. destruct (nth_error (io_reqs (q_io x)) i) as [r|] eqn:Hi; auto.
  fold (home r). fold (side r).
  destruct (existsb (is_req i) (lst (side r) (q_qs x (home r)))) eqn:Ex.
  - apply existsb_exists in Ex. destruct Ex as (e & He & Ee). apply is_req_spec in Ee. subst e.
    destruct (v_in _ V _ _ _ He) as (r' & R1 & R2 & _). unfold qreqs in R1. assert (r' = r) by congruence. subst r'.
    rewrite R2. split; auto. unfold set_st.
    apply (qinv_move x i r Finished _ (io_mem (q_io x), io_disk (q_io x))); auto; try congruence.
    + intros w j. rewrite lst_set_lst. destruct (Bool.eqb w (side r)) eqn:Q.
      * apply eqb_prop in Q. subst w. rewrite filter_In. rewrite negb_true_iff.
        destruct (is_req i (Some j)) eqn:Z.
        -- apply is_req_spec in Z. inversion Z. split; [intros (_ & ?); discriminate|intros (_ & ?); congruence].
        -- split; intros (Z1 & _); split; auto. intros ->. rewrite (proj2 (is_req_spec i (Some i)) eq_refl) in Z. discriminate.
      * split; [|tauto]. intros H. split; auto. intros ->.
        destruct (v_in _ V _ _ _ H) as (r' & Q1 & _ & _ & Q4). unfold qreqs in Q1. assert (r' = r) by congruence. subst r'.
        rewrite Q4, eqb_reflx in Q. discriminate.
    + intros w. rewrite lst_set_lst. destruct (Bool.eqb w (side r)); [apply sorted_sub|]; apply (v_sort _ V).
    + intros j _. rewrite cur_set_lst. tauto.
    + rewrite cur_set_lst. split; [|discriminate]. intros H. destruct (v_cur _ V _ _ H) as (r' & Q1 & Q2 & _).
      unfold qreqs in Q1. congruence.
  - split; auto. destruct (q_st r) eqn:P; auto. exfalso.
    assert (Z : existsb (is_req i) (lst (side r) (q_qs x (home r))) = true).
    { apply existsb_exists. exists (Some i). split; [apply (v_pend _ V); auto|apply is_req_spec; auto]. }
    congruence.
Qed.

(** A step of a worker is one of the I/O system, and keeps the order of writes. *)
Lemma qenv1_ref : forall x x', qinv x -> qenv1 kinds x x' ->
  qinv x' /\ (q_io x' = q_io x \/ env1 true (q_io x) (q_io x')).
Proof.
  intros x x' V St. inversion St; subst; clear St.
  - (* pop *)
    assert (Hin : In (Some i) (lst (d_phase (q_qs x n)) (q_qs x n))) by (rewrite H0; left; auto).
    destruct (v_in _ V _ _ _ Hin) as (r' & R1 & R2 & R3 & R4). assert (r' = r) by congruence. subst r'.
    pose proof (v_sort _ V n (d_phase (q_qs x n))) as So. rewrite H0 in So. cbn [owns flat_map app] in So.
    fold (owns rest) in So. inversion So as [|? ? So1 So2]; subst.
    split.
    + unfold set_st. apply (qinv_move x i r Running _ (io_mem (q_io x), io_disk (q_io x))); auto; try congruence.
      * intros w j. rewrite lst_set_worker, lst_set_lst. destruct (Bool.eqb w (d_phase (q_qs x (home r)))) eqn:Q.
        -- apply eqb_prop in Q. rewrite Q, H0. cbn [In]. split.
           ++ intros Hj. split; auto. intros ->. rewrite Forall_forall in So2. apply in_owns in Hj. specialize (So2 i Hj). lia.
           ++ intros ([Z|Z] & Nj); auto. congruence.
        -- split; [|tauto]. intros H2. split; auto. intros ->.
           destruct (v_in _ V _ _ _ H2) as (r' & Q1 & _ & _ & Q4). assert (r' = r) by congruence. subst r'.
           rewrite <- Q4, R4, eqb_reflx in Q. discriminate.
      * intros w. rewrite lst_set_worker, lst_set_lst. destruct (Bool.eqb w (d_phase (q_qs x (home r)))); auto.
        apply (v_sort _ V).
      * intros j Nj. cbn [set_worker d_cur]. rewrite H. split; intros Z; congruence.
      * cbn. tauto.
    + right. cbn [q_io]. apply EnvStart; auto. intros Wr _ j q' Lt Hj Wj Bj.
      assert (Eh : home q' = home r) by (unfold home; congruence).
      assert (Es : side q' = side r) by (unfold side; rewrite Eh, Wj, Wr; auto).
      destruct (q_st q') eqn:Sq; auto; exfalso.
      * pose proof (v_pend _ V j q' Hj Sq) as Hp. rewrite Eh, Es, R4, H0 in Hp.
        destruct Hp as [Hp|Hp]; [inversion Hp; lia|]. apply in_owns in Hp.
        rewrite Forall_forall in So2. specialize (So2 j Hp). lia.
      * pose proof (v_run _ V j q' Hj Sq) as Hp. rewrite Eh in Hp. congruence.
  - (* pop of another *)
    split; [|left; auto]. apply qinv_queue; [exact V|..|].
    + intros w. rewrite lst_set_worker, lst_set_lst. destruct (Bool.eqb w (d_phase (q_qs x n))) eqn:Q; auto.
      apply eqb_prop in Q. rewrite Q, H0. reflexivity.
    + intros i. cbn. rewrite H. split; discriminate.
  - split; [|left; auto]. apply qinv_queue; [exact V|..|].
    + intros w. rewrite lst_set_worker. reflexivity.
    + intros i. cbn. rewrite H. tauto.
  - destruct (v_cur _ V _ _ H) as (r' & R1 & R2 & R3). assert (r' = r) by congruence. subst r' n. split.
    + unfold set_st. cbn [io_reqs].
      apply (qinv_move x i r Finished _ (io_mem (q_io x), set_disk (io_disk (q_io x)) (q_bid r) (io_mem (q_io x) (q_buf r))));
        auto; try congruence.
      * intros w j. rewrite lst_set_worker. split; [|tauto]. intros Hj. split; auto. intros ->.
        destruct (v_in _ V _ _ _ Hj) as (r' & Q1 & Q2 & _). congruence.
      * intros w. rewrite lst_set_worker. apply (v_sort _ V).
      * intros j Nj. cbn. rewrite H. split; congruence.
      * cbn. split; discriminate.
    + right. cbn [q_io]. apply EnvWrite; auto.
  - destruct (v_cur _ V _ _ H) as (r' & R1 & R2 & R3). assert (r' = r) by congruence. subst r' n. split.
    + unfold set_st. cbn [io_reqs].
      apply (qinv_move x i r Finished _ (set_mem (io_mem (q_io x)) (q_buf r) (io_disk (q_io x) (q_bid r)), io_disk (q_io x)));
        auto; try congruence.
      * intros w j. rewrite lst_set_worker. split; [|tauto]. intros Hj. split; auto. intros ->.
        destruct (v_in _ V _ _ _ Hj) as (r' & Q1 & Q2 & _). congruence.
      * intros w. rewrite lst_set_worker. apply (v_sort _ V).
      * intros j Nj. cbn. rewrite H. split; congruence.
      * cbn. split; discriminate.
    + right. cbn [q_io]. apply EnvRead; auto.
  - split; [|left; auto]. apply qinv_queue; [exact V|..|].
    + intros w. rewrite lst_set_worker. reflexivity.
    + intros i. cbn. rewrite H. split; discriminate.
  - split; [|left; auto]. apply qinv_queue; [exact V|..|].
    + intros w'. rewrite lst_set_lst. destruct (Bool.eqb w' w) eqn:Q; auto.
      apply eqb_prop in Q. subst w'. rewrite owns_app. cbn. apply app_nil_r.
    + intros i. rewrite cur_set_lst. tauto.
  - split; [|left; auto]. apply qinv_queue; [exact V|..|].
    + intros w'. rewrite lst_set_lst. destruct (Bool.eqb w' w) eqn:Q; auto.
      apply eqb_prop in Q. subst w'. rewrite H, !owns_app. reflexivity.
    + intros i. rewrite cur_set_lst. tauto.
Qed.

Lemma qenv_ref : forall x x', qenv kinds x x' -> qinv x -> qinv x' /\ env true (q_io x) (q_io x').
Proof.
  induction 1 as [x|x x1 x2 St _ IH]; intros V; [split; auto; apply EnvRefl|].
  destruct (qenv1_ref _ _ V St) as (V1 & Z). destruct (IH V1) as (V2 & E2). split; auto.
  destruct Z as [Z|Z]; [rewrite <- Z; auto|eapply EnvStep; eauto].
Qed.

(** *** The operations *)

Lemma qw_mark_ref : forall d buf l x l' x', qw_mark kinds qid d buf l x l' x' -> qinv x ->
  qinv x' /\ w_mark true d buf l (q_io x) l' (q_io x').
Proof.
  induction 1 as [x|e l x l' x' N _ IH|e l x x1 l' x' Eq Nb En _ IH]; intros V.
  - split; auto. constructor.
  - destruct (IH V). split; auto. apply MarkSkip; auto.
  - destruct (qenv_ref _ _ En V) as (V1 & E1). destruct (qcancel_ref x1 (e_req e) V1) as (V2 & C2).
    destruct (IH V2) as (V3 & M). split; auto. rewrite C2 in M. eapply MarkHit; eauto.
Qed.

Lemma qw_write_ref : forall w x b d w' x' r, qw_write kinds qid w x b d w' x' r -> qinv x ->
  qinv x' /\ w_write true w (q_io x) b d w' (q_io x') r.
Proof.
  intros w x b d w' x' r H V. inversion H; subst. destruct (qw_mark_ref _ _ _ _ _ _ H0 V) as (V1 & M).
  split; [apply qinv_post; auto|]. apply (WWrite true w (q_io x) b d l (q_io s1)). auto.
Qed.

Lemma qw_check_ref : forall l x mv rest x', qw_check kinds l x mv rest x' -> qinv x ->
  qinv x' /\ w_check true l (q_io x) mv rest (q_io x').
Proof.
  induction 1 as [x|e l x x1 mv rest x' En F _ IH|e l x x1 mv rest x' En F _ IH]; intros V.
  - split; auto. constructor.
  - destruct (qenv_ref _ _ En V) as (V1 & E1). destruct (IH V1). split; auto. eapply ChkMove; eauto.
  - destruct (qenv_ref _ _ En V) as (V1 & E1). destruct (IH V1). split; auto. eapply ChkKeep; eauto.
Qed.

Lemma qw_steal_ref : forall w x w' x' b, qw_steal kinds w x w' x' b -> qinv x ->
  qinv x' /\ w_steal true w (q_io x) w' (q_io x') b.
Proof.
  intros w x w' x' b H V. inversion H; subst.
  - split; auto. eapply WStealFree; eauto.
  - destruct (qenv_ref _ _ H1 V) as (V1 & E1). destruct (qw_check_ref _ _ _ _ _ H4 V1). split; auto.
    eapply WStealWait; eauto.
Qed.

Lemma qw_steals_ref : forall k w x w' x' bs, qw_steals kinds k w x w' x' bs -> qinv x ->
  qinv x' /\ w_steals true k w (q_io x) w' (q_io x') bs.
Proof.
  induction 1 as [w x|k w x w1 x1 b w2 x2 bs H _ IH]; intros V.
  - split; auto. constructor.
  - destruct (qw_steal_ref _ _ _ _ _ H V) as (V1 & S1). destruct (IH V1). split; auto. econstructor; eauto.
Qed.

Lemma qw_resize_ref : forall w x nx n w' x' nx' del, qw_resize kinds w x nx n w' x' nx' del -> qinv x ->
  qinv x' /\ w_resize true w (q_io x) nx n w' (q_io x') nx' del.
Proof.
  intros w x nx n w' x' nx' del H V. inversion H; subst.
  - split; auto. apply WGrow; auto.
  - destruct (qw_steals_ref _ _ _ _ _ _ H1 V). split; auto. apply WShrink; auto.
Qed.

Lemma qp_hint0_ref : forall p x d p' x' r, qp_hint0 kinds qid p x d p' x' r -> qinv x ->
  qinv x' /\ p_hint0 p (q_io x) d p' (q_io x') r.
Proof.
  intros p x d p' x' r H V. inversion H; subst.
  - split; auto. eapply Hint0Already; eauto.
  - split; [apply qinv_post; auto|]. eapply Hint0Read; eauto.
  - split; auto. eapply Hint0None; eauto.
Qed.

Lemma qp_hint_ref : forall p w x d p' w' x' r, qp_hint kinds qid p w x d p' w' x' r -> qinv x ->
  qinv x' /\ p_hint p w (q_io x) d p' w' (q_io x') r.
Proof.
  intros p w x d p' w' x' r H V. inversion H; subst.
  - split; auto. eapply HintAlready; eauto.
  - split; auto. eapply HintWrite; eauto.
  - split; [apply qinv_post; auto|]. eapply HintRead; eauto.
  - split; auto. eapply HintNone; eauto.
Qed.

Lemma qp_invalidate_ref : forall p x d p' x' r, qp_invalidate kinds qid p x d p' x' r -> qinv x ->
  qinv x' /\ p_invalidate true p (q_io x) d p' (q_io x') r.
Proof.
  intros p x d p' x' r H V. inversion H; subst.
  - split; auto. apply InvNone; auto.
  - destruct (qenv_ref _ _ H1 V) as (V1 & E1).
    assert (G : qinv (if qis_read s1 (p_req e) then qcancel kinds qid s1 (p_req e) else s1) /\
      q_io (if qis_read s1 (p_req e) then qcancel kinds qid s1 (p_req e) else s1) =
      if is_read (q_io s1) (p_req e) then cancel (q_io s1) (p_req e) else q_io s1).
    { change (qis_read s1 (p_req e)) with (is_read (q_io s1) (p_req e)).
      destruct (is_read (q_io s1) (p_req e)); auto. apply qcancel_ref. auto. }
    destruct G as (V2 & G). destruct (qenv_ref _ _ H2 V2) as (V3 & E3). split; auto.
    rewrite G in E3. eapply InvSome; eauto.
Qed.

Lemma qp_read0_ref : forall p x b d p' x' b' r, qp_read0 kinds qid p x b d p' x' b' r -> qinv x ->
  qinv x' /\ p_read0 p (q_io x) b d p' (q_io x') b' r.
Proof.
  intros p x b d p' x' b' r H V. inversion H; subst.
  - split; [apply qinv_post; auto|]. apply Read0Disk; auto.
  - split; auto. apply Read0Cached; auto.
Qed.

Lemma qp_read_ref : forall p w x b d p' w' x' b' r, qp_read kinds qid p w x b d p' w' x' b' r -> qinv x ->
  qinv x' /\ p_read p w (q_io x) b d p' w' (q_io x') b' r.
Proof.
  intros p w x b d p' w' x' b' r H V. inversion H; subst.
  - split; auto. apply ReadCached; auto.
  - split; auto. eapply ReadWrite; eauto.
  - split; [apply qinv_post; auto|]. apply ReadDisk; auto.
Qed.

Lemma qrw_write_ref : forall p w x b d p' w' x', qrw_write kinds qid p w x b d p' w' x' -> qinv x ->
  qinv x' /\ rw_write true p w (q_io x) b d p' w' (q_io x').
Proof.
  intros p w x b d p' w' x' H V. inversion H; subst.
  - destruct (qw_write_ref _ _ _ _ _ _ _ H0 V) as (V1 & W1). destruct (qp_invalidate_ref _ _ _ _ _ _ H1 V1) as (V2 & I2).
    split; auto. eapply RWPlain; eauto.
  - destruct (qw_write_ref _ _ _ _ _ _ _ H0 V) as (V1 & W1). destruct (qp_invalidate_ref _ _ _ _ _ _ H1 V1) as (V2 & I2).
    destruct (qp_hint_ref _ _ _ _ _ _ _ _ H2 V2) as (V3 & P3). split; auto. eapply RWRehint; eauto.
Qed.

(** The state without the queues. *)
Definition plain (x : qst) : st := MkSt (qs_p x) (qs_w x) (q_io (qs_io x)) (qs_own x) (qs_next x).

Lemma qstep_ref : forall x a y, qstep kinds qid x a y -> qinv (qs_io x) ->
  qinv (qs_io y) /\ step true (plain x) a (plain y).
Proof.
  intros x a y H V. inversion H; subst; cbn [qs_io] in *; unfold plain; cbn [qs_p qs_w qs_io qs_own qs_next].
  - destruct (qenv_ref _ _ H0 V). split; auto. apply SIdle; auto.
  - split; [apply qinv_set; auto|]. apply SSet; auto.
  - split; auto. apply SNew.
  - destruct (qrw_write_ref _ _ _ _ _ _ _ _ H2 V). split; auto. eapply SWrite; eauto.
  - destruct (qp_read_ref _ _ _ _ _ _ _ _ _ _ H2 V) as (V1 & R1). destruct (qenv_ref _ _ H3 V1). split; auto.
    eapply SRead; eauto.
  - destruct (qp_hint_ref _ _ _ _ _ _ _ _ H1 V). split; auto. apply SHint; auto.
  - destruct (qp_invalidate_ref _ _ _ _ _ _ H0 V). split; auto. apply SInvalidate; auto.
  - destruct (qw_steal_ref _ _ _ _ _ H0 V). split; auto. apply SSteal; auto.
  - split; auto. apply SAdd; auto.
  - split; auto. apply SAddP; auto.
  - split; auto. apply SStealP; auto.
  - destruct (qw_resize_ref _ _ _ _ _ _ _ _ H0 V). split; auto. eapply SResizeW; eauto.
  - split; auto. eapply SResizeP; eauto.
  - destruct (qenv_ref _ _ H2 V). split; auto. eapply SStealReq; eauto.
  - destruct (qp_hint0_ref _ _ _ _ _ _ H1 V). split; auto. apply SHint0; auto.
  - destruct (qp_read0_ref _ _ _ _ _ _ _ _ H2 V) as (V1 & R1). destruct (qenv_ref _ _ H3 V1). split; auto.
    eapply SRead0; eauto.
  - destruct (qp_read_ref _ _ _ _ _ _ _ _ _ _ H2 V). split; auto. eapply SReadNoWait; eauto.
  - destruct (qenv_ref _ _ H1 V). split; auto. apply SWait; auto.
Qed.

Lemma qrun_ref : forall x l y, qrun kinds qid x l y -> qinv (qs_io x) ->
  qinv (qs_io y) /\ run true (plain x) l (plain y).
Proof.
  induction 1 as [x|x a x1 l x2 St _ IH]; intros V.
  - split; auto. constructor.
  - destruct (qstep_ref _ _ _ St V) as (V1 & S1). destruct (IH V1). split; auto. econstructor; eauto.
Qed.

Lemma qrun_init : forall np nw m disk l y, qrun kinds qid (qinit np nw m disk) l y ->
  qinv (qs_io y) /\ run true (init np nw m disk) l (plain y).
Proof. intros np nw m disk l y H. exact (qrun_ref _ _ _ H (qinv_init m disk)). Qed.

End Ref.
