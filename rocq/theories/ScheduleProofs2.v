(** Prefetch schedule: initial state, whole runs, the final sort. *)

From Coq Require Import List Arith Bool Lia Permutation Sorted.
From Verif Require Import ScheduleModel ScheduleSpec ScheduleProofs.
Import ListNotations.

Section Init.
Variable disks : list (option nat).
Variable D m : nat.
Let L := length disks.
Let disk (b : nat) := get_disk b disks D.
Hypothesis Hdisks : forall b, b < L -> disk b <> None.
Hypothesis Hm : 1 <= m.

Definition q_ok (q : nat -> list nat) : Prop :=
  forall d b, d <= D -> In b (q d) -> disk b = Some d.

Lemma fill_spec : forall k i q, i <= L -> q_ok q ->
  exists q', fill disks D k i q = Some (i - k, q') /\ q_ok q' /\
    Permutation (allq D q') (seq (i - k) (i - (i - k)) ++ allq D q).
Proof.
  induction k; intros i q Hi Hq.
  - exists q. rewrite Nat.sub_0_r, Nat.sub_diag. cbn. auto.
  - destruct i as [|i]; [exists q; cbn; auto|].
    replace (S i - S k) with (i - k) by lia. cbn [fill]. fold (disk i).
    destruct (disk i) as [d|] eqn:Ed; [|exfalso; eapply Hdisks; [|exact Ed]; lia].
    pose proof (get_disk_le _ _ _ _ Ed) as Hle.
    destruct (IHk i (upd q d (q d ++ [i]))) as (q' & E & Q & P); [lia| |].
    { intros d' b Hd' H. destruct (Nat.eq_dec d' d) as [->|N].
      - rewrite upd_same in H. apply in_app_or in H.
        destruct H as [H|[H|[]]]; [auto|subst; auto].
      - rewrite upd_other in H by auto. auto. }
    exists q'. split; auto. split; auto.
    eapply Permutation_trans; [exact P|].
    eapply Permutation_trans; [apply Permutation_app_head; apply allq_push; auto|].
    replace (S i - (i - k)) with (S (i - (i - k))) by lia.
    rewrite seq_S. rewrite <- app_assoc. cbn.
    replace (i - k + (i - (i - k))) with i by lia. auto.
Qed.

Lemma first_events_spec : forall n from q ev, from + n = S D -> q_ok q ->
  (forall t b, In (t, b) ev -> t = 1 /\ exists d, disk b = Some d /\ d < from) ->
  NoDup (map (key disks D) ev) ->
  (forall d, d < from -> q d <> [] -> exists t b, In (t, b) ev /\ disk b = Some d) ->
  let (q', ev') := first_events from n q ev in
  q_ok q' /\ (forall t b, In (t, b) ev' -> t = 1) /\
  NoDup (map (key disks D) ev') /\
  (forall d, d <= D -> q' d <> [] -> exists t b, In (t, b) ev' /\ disk b = Some d) /\
  Permutation (map snd ev' ++ allq D q') (map snd ev ++ allq D q).
Proof.
  induction n; intros from q ev Hf Hq Ht Hk Hd; cbn [first_events].
  - csplit; auto.
    + intros t b H. apply Ht in H. tauto.
    + intros d H. apply Hd. lia.
  - destruct (q from) as [|j rest] eqn:Eq.
    + apply IHn; auto; try lia.
      * intros t b H. destruct (Ht t b H) as (A & d & B & C). split; auto.
        exists d; split; auto; lia.
      * intros d H Hne. apply Hd; auto.
        destruct (Nat.eq_dec d from) as [->|N]; [congruence|lia].
    + assert (Hj : disk j = Some from).
      { apply Hq; [lia|]. rewrite Eq; cbn; auto. }
      specialize (IHn (S from) (upd q from rest) ((1, j) :: ev)).
      assert (P : Permutation (map snd ((1, j) :: ev) ++ allq D (upd q from rest))
                              (map snd ev ++ allq D q)).
      { cbn. eapply Permutation_trans; [apply Permutation_middle|].
        apply Permutation_app_head. apply Permutation_sym, allq_pop; auto; lia. }
      destruct (first_events (S from) n (upd q from rest) ((1, j) :: ev)) as (q', ev').
      destruct IHn as (A1 & A2 & A3 & A4 & A5).
      * lia.
      * intros d b Hdd H. destruct (Nat.eq_dec d from) as [->|N].
        -- rewrite upd_same in H. apply Hq; auto. rewrite Eq; cbn; auto.
        -- rewrite upd_other in H by auto. auto.
      * intros t b [H|H].
        -- inversion H; subst. split; auto. exists from; split; auto.
        -- destruct (Ht t b H) as (A & d & B & C). split; auto. exists d; split; auto; lia.
      * cbn. constructor; auto. intros H. apply in_map_iff in H.
        destruct H as ((t, b) & E & H). unfold key in E; cbn in E.
        destruct (Ht t b H) as (_ & d & B & C). inversion E.
        fold (disk b) in *. fold (disk j) in *. assert (d = from) by congruence. lia.
      * intros d H Hne. destruct (Nat.eq_dec d from) as [->|N].
        -- exists 1, j; cbn; auto.
        -- rewrite upd_other in Hne by auto. destruct (Hd d) as (t & b & A & B); auto; try lia.
           exists t, b; cbn; auto.
      * csplit; auto. eapply Permutation_trans; eauto.
Qed.

Lemma allq_nil : allq D (fun _ => []) = [].
Proof. unfold allq. induction (seq 0 (S D)); cbn; auto. Qed.

Lemma init_inv : D <= L -> forall busy0,
  exists s0, sim_init disks m D busy0 = Some s0 /\ Inv disks D m s0 [].
Proof.
  intros HD busy0. unfold sim_init. fold L.
  destruct (L <? D) eqn:E; [apply Nat.ltb_lt in E; lia|].
  destruct (fill_spec m L (fun _ => [])) as (q & Ef & Qf & Pf); auto.
  { intros d b _ []. }
  rewrite Ef. rewrite allq_nil, app_nil_r in Pf.
  pose proof (first_events_spec (S D) 0 q []) as F.
  destruct (first_events 0 (S D) q []) as (q', ev').
  destruct F as (A1 & A2 & A3 & A4 & A5); auto.
  { intros t b []. } { constructor. } { intros; lia. }
  cbn in A5.
  assert (P : Permutation (map snd ev' ++ allq D q') (seq (L - m) (L - (L - m)))).
  { eapply Permutation_trans; eauto. }
  eexists; split; [reflexivity|]. constructor; cbn [s_queues s_events s_i s_old s_busy s_out]; auto.
  - constructor; auto.
    + fold L. lia.
    + cbn. rewrite app_nil_r. auto.
    + intros t b; cbn. split; [tauto|discriminate].
    + intros t b H. apply A2 in H. lia.
    + rewrite app_nil_r. auto.
    + lia.
    + intros t b [].
    + intros t k [].
  - intros Hi En. subst ev'.
    assert (Ex : In (L - m) (map snd (@nil (nat * nat)) ++ allq D q')).
    { apply (Permutation_in _ (Permutation_sym P)). apply in_seq. lia. }
    cbn in Ex. apply in_allq in Ex. destruct Ex as (d & B1 & B2).
    destruct (A4 d B1) as (t & b & [] & _). intros Hn; rewrite Hn in B2; destruct B2.
  - apply Permutation_length in P. rewrite app_length, map_length, seq_length in P. lia.
Qed.

Lemma steps_inv : forall n s0 s, sim_steps disks D n s0 s -> Inv disks D m s0 [] ->
  exists outs, Inv disks D m s outs /\ length outs = n.
Proof.
  induction 1; intros I.
  - exists []; auto.
  - destruct (IHsim_steps I) as (outs & I2 & E).
    destruct (step_inv disks D m Hdisks _ _ _ I2 H0) as (t & b & e1 & e2 & _ & I3 & _).
    eexists; split; [exact I3|]. cbn; auto.
Qed.

Lemma run_exists : forall n s outs, Inv disks D m s outs -> L - length outs <= n ->
  exists k s', sim_steps disks D k s s' /\ s_events s' = [].
Proof.
  induction n; intros s outs I H.
  - pose proof (inv_outs_le _ _ _ _ _ I) as B. fold L in B.
    exists 0, s; split; [constructor|]. destruct (s_events s); auto. cbn in B. lia.
  - destruct (s_events s) as [|e ev] eqn:E.
    + exists 0, s; split; [constructor|auto].
    + destruct (step_exists _ _ _ Hdisks s outs I) as (s1 & S1); [congruence|].
      destruct (step_inv disks D m Hdisks _ _ _ I S1) as (t & b & e1 & e2 & _ & I3 & _).
      destruct (IHn s1 ((t, b) :: outs) I3) as (k & s' & R & Z); [cbn; lia|].
      exists (S k), s'; split; auto.
      clear - S1 R. induction R.
      * econstructor; [constructor|auto].
      * econstructor; [apply IHR; auto|auto].
Qed.

End Init.

(** ** Sorting *)

Definition before (x y : nat * nat) : Prop :=
  snd y < snd x \/ (snd x = snd y /\ fst x < fst y).

Lemma insert_perm : forall x l, Permutation (insert_time x l) (x :: l).
Proof.
  induction l as [|y l]; cbn [insert_time]; auto. destruct (snd x <? snd y); auto.
  eapply Permutation_trans; [apply perm_skip; exact IHl|apply perm_swap].
Qed.

Lemma sort_perm : forall l, Permutation (sort_time l) l.
Proof.
  induction l; cbn; auto. eapply Permutation_trans; [apply insert_perm|auto].
Qed.

Lemma insert_sorted : forall x l,
  (forall y, In y l -> fst x < fst y) -> StronglySorted before l ->
  StronglySorted before (insert_time x l).
Proof.
  induction l as [|y l]; intros H S; cbn [insert_time].
  - constructor; constructor.
  - inversion S; subst. destruct (snd x <? snd y) eqn:E.
    + apply Nat.ltb_lt in E. constructor; [apply IHl; auto; intros; apply H; cbn; auto|].
      eapply Permutation_Forall; [apply Permutation_sym, insert_perm|].
      constructor; auto. left; auto.
    + apply Nat.ltb_ge in E. constructor; auto.
      assert (B : before x y).
      { assert (fst x < fst y) by (apply H; cbn; auto).
        unfold before. destruct (Nat.eq_dec (snd x) (snd y)); [right; auto|left; lia]. }
      constructor; auto.
      rewrite Forall_forall in *. intros z Hz. specialize (H3 z Hz).
      unfold before in *. lia.
Qed.

Lemma sort_sorted : forall l,
  StronglySorted (fun x y : nat * nat => fst x < fst y) l -> StronglySorted before (sort_time l).
Proof.
  induction l; intros S; cbn; [constructor|].
  inversion S; subst. apply insert_sorted; auto.
  intros y Hy. apply (Permutation_in _ (sort_perm l)) in Hy.
  rewrite Forall_forall in H2. auto.
Qed.

Lemma write_order_spec : forall out n i l, write_order out i n = Some l ->
  map fst l = seq i n /\ (forall b t, In (b, t) l -> out b = Some t) /\
  StronglySorted (fun x y : nat * nat => fst x < fst y) l.
Proof.
  induction n; intros i l H; cbn in H.
  - inversion H; subst; csplit; auto; [intros ? ? []|constructor].
  - destruct (out i) as [t|] eqn:E; [|discriminate].
    destruct (write_order out (S i) n) as [l'|] eqn:E'; inversion H; subst.
    destruct (IHn _ _ E') as (A & B & C). csplit.
    + cbn. congruence.
    + intros b t' [H0|H0]; auto. inversion H0; subst; auto.
    + constructor; auto. apply Forall_forall. intros y Hy.
      assert (In (fst y) (seq (S i) n)) by (rewrite <- A; apply in_map; auto).
      apply in_seq in H0. cbn. lia.
Qed.

Lemma write_order_exists : forall out n i,
  (forall b, i <= b < i + n -> out b <> None) -> exists l, write_order out i n = Some l.
Proof.
  induction n; intros i H; cbn; [eauto|].
  destruct (out i) eqn:E; [|exfalso; apply (H i); auto; lia].
  destruct (IHn (S i)) as (l & El); [intros; apply H; lia|].
  rewrite El; eauto.
Qed.

Lemma sorted_split : forall {A} (R : A -> A -> Prop) l1 x l2,
  StronglySorted R (l1 ++ x :: l2) -> forall y, In y l1 -> R y x.
Proof.
  induction l1; intros x l2 S y H; cbn in *; [tauto|].
  inversion S; subst. destruct H as [->|H]; [|eauto].
  rewrite Forall_forall in H3. apply H3. apply in_or_app; cbn; auto.
Qed.

(** Position of a block in the sorted array. *)
Lemma position : forall n m out l k,
  (forall t, out k = Some t -> forall ls, NoDup ls ->
     (forall j, In j ls -> k < j < n /\
        (out j = None \/ exists t', out j = Some t' /\ t < t')) -> length ls < m) ->
  write_order out 0 n = Some l -> k < n ->
  In k (firstn (m + k) (map fst (sort_time l))).
Proof.
  intros n m out l k Hl W Hk.
  destruct (write_order_spec _ _ _ _ W) as (A & B & C).
  pose proof (sort_sorted _ C) as S. pose proof (sort_perm l) as P.
  assert (Ik : In k (map fst l)) by (rewrite A; apply in_seq; lia).
  apply in_map_iff in Ik. destruct Ik as ((k', t) & E & Ik). cbn in E; subst k'.
  pose proof (B _ _ Ik) as Ok.
  apply (Permutation_in _ (Permutation_sym P)) in Ik.
  apply in_split in Ik. destruct Ik as (l1 & l2 & E).
  assert (ND : NoDup (map fst (sort_time l))).
  { eapply Permutation_NoDup; [apply Permutation_map, Permutation_sym; exact P|].
    rewrite A. apply seq_NoDup. }
  rewrite E in *. rewrite map_app in *. cbn in *.
  pose proof (NoDup_remove_1 _ _ _ ND) as ND1. pose proof (NoDup_remove_2 _ _ _ ND) as ND2.
  assert (N1 : NoDup (map fst l1)).
  { clear - ND1. induction (map fst l1); constructor; inversion ND1; subst; auto.
    intros H; apply H1; apply in_or_app; auto. }
  assert (In1 : forall j, In j (map fst l1) -> j < n /\ j <> k /\
            (k < j -> exists t', out j = Some t' /\ t < t')).
  { intros j Hj. split; [|split].
    - assert (In j (map fst l)).
      { assert (In j (map fst (l1 ++ (k, t) :: l2))) by (rewrite map_app; apply in_or_app; auto).
        eapply Permutation_in; [|exact H]. apply Permutation_map. auto. }
      rewrite A in H. apply in_seq in H. lia.
    - intros ->. apply ND2. apply in_or_app; auto.
    - intros Lt. apply in_map_iff in Hj. destruct Hj as ((j', t') & E' & Hj). cbn in E'; subst j'.
      pose proof (sorted_split _ _ _ _ S _ Hj) as Hb. unfold before in Hb; cbn in Hb.
      exists t'. split; [|lia]. apply B.
      apply (Permutation_in _ P). apply in_or_app; auto. }
  assert (Len : length (map fst l1) < m + k).
  { pose (f := fun j => j <? k).
    assert (Sp : length (map fst l1) = length (filter f (map fst l1))
                 + length (filter (fun j => negb (f j)) (map fst l1))).
    { clear. induction (map fst l1) as [|a l']; [reflexivity|]. cbn [filter length].
      destruct (f a); cbn [negb length]; lia. }
    assert (S1 : length (filter f (map fst l1)) <= k).
    { rewrite <- (seq_length k 0). apply NoDup_incl_length.
      - apply NoDup_filter; auto.
      - intros j Hj. apply filter_In in Hj. destruct Hj as (_ & Hj).
        apply Nat.ltb_lt in Hj. apply in_seq; lia. }
    assert (S2 : length (filter (fun j => negb (f j)) (map fst l1)) < m).
    { apply (Hl t Ok).
      - apply NoDup_filter; auto.
      - intros j Hj. apply filter_In in Hj. destruct Hj as (Hj & Hf).
        apply negb_true_iff in Hf. apply Nat.ltb_ge in Hf.
        destruct (In1 j Hj) as (G1 & G2 & G3). split; [lia|]. right. apply G3. lia. }
    lia. }
  rewrite firstn_app. apply in_or_app; right.
  destruct (m + k - length (map fst l1)) eqn:Z; [lia|]. cbn; auto.
Qed.
