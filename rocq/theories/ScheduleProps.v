(** C36-C38: the prefetch schedule. *)

From Coq Require Import List Arith Bool Lia Permutation.
From Verif Require Import ScheduleModel ScheduleSpec ScheduleProofs ScheduleProofs2.
Import ListNotations.

Lemma ids_valid : forall disks D, ids_up_to D disks ->
  forall b, b < length disks -> get_disk b disks D <> None.
Proof.
  intros disks D H b Hb. unfold get_disk.
  destruct (nth_error disks b) as [[d|]|] eqn:E; try discriminate.
  - apply nth_error_In, H, Nat.leb_le in E. rewrite E. discriminate.
  - apply nth_error_None in E. lia.
Qed.

(** A concrete instance used beside the theorems: five blocks, the second one
    on the default device and the others on disk 0, three buffers, largest
    device id 1. *)
Definition ex_disks : list (option nat) := [Some 0; None; Some 0; Some 0; Some 0].

Lemma ex_ids : ids_up_to 1 ex_disks.
Proof.
  intros d H. cbn in H. repeat (destruct H as [H|H]; [inversion H; lia|]). destruct H.
Qed.

Lemma steps_front : forall disks D n s1 s2 s3,
  sim_step disks D s1 s2 -> sim_steps disks D n s2 s3 -> sim_steps disks D (S n) s1 s3.
Proof.
  intros disks D n s1 s2 s3 H R. induction R.
  - econstructor; [constructor|auto].
  - econstructor; [apply IHR; auto|auto].
Qed.

Ltac pick e1 t b e2 :=
  eapply steps_front; [apply (SimStep _ _ _ _ e1 t b e2);
    [reflexivity
    |cbn; intros ? ? ?; repeat match goal with H : _ \/ _ |- _ => destruct H end;
     try tauto; match goal with H : (_, _) = (_, _) |- _ => inversion H end; lia
    |match goal with |- ?x = Some ?y => let v := eval cbv in x in
       match v with Some ?w => unify y w end end; vm_compute; reflexivity]|].

(** ** C36 *)

(** The simulation never fails an assertion, needs exactly one iteration per
    block whatever events of equal time are taken first, and ends with all
    queues empty. *)
Theorem C36_simulation_terminates : forall disks m D busy0,
  ids_up_to D disks -> 1 <= m -> D < length disks ->
  exists s0, sim_init disks m D busy0 = Some s0 /\
    (exists n s, sim_steps disks D n s0 s /\ s_events s = []) /\
    forall n s, sim_steps disks D n s0 s ->
      n <= length disks /\
      (s_events s = [] -> n = length disks /\ sim_end_ok D s /\
                          forall b, b < length disks -> s_out s b <> None) /\
      (s_events s <> [] -> exists s', sim_step disks D s s').
Proof.
  intros disks m D busy0 V Hm HD.
  pose proof (ids_valid _ _ V) as Hd.
  destruct (init_inv disks D m Hd Hm) with (busy0 := busy0) as (s0 & E0 & I0); [lia|].
  exists s0. split; auto. split.
  - eapply run_exists with (n := length disks); eauto. lia.
  - intros n s R. destruct (steps_inv disks D m Hd n s0 s R I0) as (outs & I & En).
    pose proof (inv_outs_le _ _ _ _ _ I). split; [lia|]. split.
    + intros Ee. destruct (inv_end _ _ _ _ _ I Ee) as (A & B). split; [|split; auto].
      * apply Permutation_length in B. rewrite map_length, seq_length in B. lia.
      * intros b Hb. assert (Hin : In b (map snd outs)).
        { apply (Permutation_in _ (Permutation_sym B)). apply in_seq; lia. }
        apply in_map_iff in Hin. destruct Hin as ((t, b') & E & Hin). cbn in E; subst b'.
        apply (c_out _ _ _ _ _ _ _ _ _ _ (i_core _ _ _ _ _ I)) in Hin. congruence.
    + intros Hne. eapply step_exists; eauto.
Qed.
Print Assumptions C36_simulation_terminates.

Lemma schedule_order : forall disks m D out, 1 <= m -> ids_up_to D disks ->
  schedule disks m D out ->
  (length disks <= D /\ out = seq 0 (length disks)) \/
  exists s outs order, Inv disks D m s outs /\
    Permutation (map snd outs) (seq 0 (length disks)) /\
    write_order (s_out s) 0 (length disks) = Some order /\
    out = map fst (sort_time order).
Proof.
  intros disks m D out Hm V Sc. destruct Sc as [H|busy0 s0 n s order HD E0 R Ok W].
  - left; auto.
  - right. pose proof (ids_valid _ _ V) as Hd.
    destruct (init_inv disks D m Hd Hm) with (busy0 := busy0) as (s0' & E0' & I0); [lia|].
    assert (s0' = s0) by congruence. subst s0'.
    destruct (steps_inv disks D m Hd n s0 s R I0) as (outs & I & En).
    destruct Ok as (Ee & _ & _).
    destruct (inv_end _ _ _ _ _ I Ee) as (_ & P).
    exists s, outs, order. auto.
Qed.

Theorem C36_schedule_is_permutation : forall disks m D,
  ids_up_to D disks -> 1 <= m ->
  (exists out, schedule disks m D out) /\
  forall out, schedule disks m D out -> all_blocks_once (length disks) out.
Proof.
  intros disks m D V Hm. split.
  - destruct (le_lt_dec (length disks) D) as [H|H].
    + eexists; constructor; auto.
    + destruct (C36_simulation_terminates disks m D (fun _ => false) V Hm H)
        as (s0 & E0 & (n & s & R & Ee) & Hall).
      destruct (Hall n s R) as (_ & Hend & _). destruct (Hend Ee) as (_ & Ok & Ho).
      destruct (write_order_exists (s_out s) (length disks) 0) as (l & W).
      { intros b Hb. apply Ho. lia. }
      exists (map fst (sort_time l)). econstructor; eauto.
  - intros out Sc. unfold all_blocks_once.
    destruct (schedule_order _ _ _ _ Hm V Sc) as [(H & ->)|(s & outs & order & I & P & W & ->)]; auto.
    destruct (write_order_spec _ _ _ _ W) as (A & _ & _). rewrite <- A.
    apply Permutation_map, sort_perm.
Qed.
Print Assumptions C36_schedule_is_permutation.

(** Without a single buffer nothing is ever scheduled: the assertion i == 0
    fails, and if assertions are disabled the output array is copied from
    entries that were never written. *)
Theorem C36_no_buffers_refuted : forall disks D busy0, D < length disks ->
  (exists s0, sim_init disks 0 D busy0 = Some s0 /\
     s_events s0 = [] /\ s_i s0 = length disks /\ (forall b, s_out s0 b = None)) /\
  ~ exists out, schedule disks 0 D out.
Proof.
  intros disks D busy0 H.
  assert (G : forall n from ev, first_events from n (fun _ : nat => @nil nat) ev = (fun _ => [], ev)).
  { induction n; intros; cbn; auto. }
  assert (E : forall busy, sim_init disks 0 D busy =
            Some (mkSim (fun _ => []) [] (length disks) 0 busy (fun _ => None))).
  { intros busy. unfold sim_init. destruct (length disks <? D) eqn:E; [apply Nat.ltb_lt in E; lia|].
    cbn [fill]. rewrite G. auto. }
  split.
  - eexists; split; [apply E|]. cbn; auto.
  - intros (out & Sc). destruct Sc as [H1|busy s0 n s order HD E0 R Ok W]; [lia|].
    rewrite E in E0. inversion E0; subst s0.
    assert (s = mkSim (fun _ => []) [] (length disks) 0 busy (fun _ => None)).
    { clear - R. remember (mkSim _ _ _ _ _ _) as s0. revert Heqs0. induction R; intros; auto.
      rewrite (IHR Heqs0) in H. inversion H. subst s1. cbn in H0. destruct e1; discriminate. }
    subst s. destruct Ok as (_ & Hi & _). cbn in Hi. lia.
Qed.
Print Assumptions C36_no_buffers_refuted.

Example C36_case :
  ids_up_to 1 ex_disks /\ 1 < length ex_disks /\ schedule ex_disks 3 1 [0; 2; 1; 3; 4].
Proof.
  csplit; [apply ex_ids|cbn; lia|].
  change [0; 2; 1; 3; 4]
    with (map fst (sort_time [(0, 4); (1, 2); (2, 3); (3, 2); (4, 1)])).
  eapply SchedSimulate with (busy0 := fun _ => true).
  - cbn; lia.
  - cbv; reflexivity.
  - pick (@nil (nat * nat)) 1 4 (@nil (nat * nat)).
    pick (@nil (nat * nat)) 2 3 [(2, 1)].
    pick [(3, 2)] 2 1 (@nil (nat * nat)).
    pick (@nil (nat * nat)) 3 2 (@nil (nat * nat)).
    pick (@nil (nat * nat)) 4 0 (@nil (nat * nat)).
    apply SimStepsNil.
  - unfold sim_end_ok. csplit; try reflexivity.
    intros d Hd. destruct d as [|[|d]]; [reflexivity|reflexivity|lia].
  - reflexivity.
Qed.

(** ** C37 *)

Theorem C37_never_starves : forall disks m D out,
  ids_up_to D disks -> 1 <= m ->
  schedule disks m D out -> never_starves m (length disks) out.
Proof.
  intros disks m D out V Hm Sc k Hk. unfold requested.
  destruct (schedule_order _ _ _ _ Hm V Sc) as [(H & ->)|(s & outs & order & I & P & W & ->)].
  - assert (E : seq 0 (length disks) = seq 0 k ++ k :: seq (S k) (length disks - S k))
      by (apply seq_split_at; auto).
    rewrite E, firstn_app, seq_length.
    apply in_or_app; right. destruct (m + k - k) eqn:Z; [lia|]. cbn; auto.
  - eapply position; eauto. intros t Ht ls ND Hl.
    pose proof (i_core _ _ _ _ _ I) as C.
    apply (c_late _ _ _ _ _ _ _ _ _ _ C t k); auto.
    apply (c_out _ _ _ _ _ _ _ _ _ _ C); auto.
Qed.
Print Assumptions C37_never_starves.

(** The number of buffers matters: a reader with two buffers less than the
    schedule was computed for can be left without the block it needs. *)
Theorem C37_two_fewer_buffers_refuted :
  exists disks m D out, ids_up_to D disks /\ 2 <= m /\
    schedule disks m D out /\ ~ never_starves (m - 2) (length disks) out.
Proof.
  exists ex_disks, 3, 1, [0; 2; 1; 3; 4]. csplit.
  - apply ex_ids.
  - lia.
  - apply C36_case.
  - intros H. specialize (H 1). cbn in H. destruct H as [H|[H|H]]; lia.
Qed.
Print Assumptions C37_two_fewer_buffers_refuted.

Example C37_case : never_starves 3 5 [0; 2; 1; 3; 4] /\ ~ never_starves 3 5 [1; 2; 3; 4; 0].
Proof.
  split.
  - apply (C37_never_starves ex_disks 3 1); [apply ex_ids|lia|apply C36_case].
  - intros H. specialize (H 0). cbn in H. destruct H as [H|[H|[H|H]]]; lia.
Qed.

(** ** C38 *)

(** During the whole simulation: no disk gets two blocks in one time step, a
    block leaves the buffer only once and only after it entered, and never
    more than [m] blocks are in the buffer. *)
Theorem C38_one_write_per_disk_and_step : forall disks m D busy0 s0 n s,
  ids_up_to D disks -> 1 <= m -> D < length disks ->
  sim_init disks m D busy0 = Some s0 -> sim_steps disks D n s0 s ->
  one_per_disk_and_step (length disks) (fun b => get_disk b disks D) (s_out s).
Proof.
  intros disks m D busy0 s0 n s V Hm HD E0 R b1 b2 t H1 H2 T1 T2 Hd.
  pose proof (ids_valid _ _ V) as Hv.
  destruct (init_inv disks D m Hv Hm) with (busy0 := busy0) as (s0' & E0' & I0); [lia|].
  assert (s0' = s0) by congruence. subst s0'.
  destruct (steps_inv disks D m Hv n s0 s R I0) as (outs & I & En).
  pose proof (i_core _ _ _ _ _ I) as C.
  apply (c_out _ _ _ _ _ _ _ _ _ _ C) in T1, T2.
  pose proof (c_key _ _ _ _ _ _ _ _ _ _ C) as K.
  assert (Ko : NoDup (map (key disks D) outs)).
  { rewrite map_app in K. clear - K. induction (map (key disks D) (s_events s)); auto.
    apply IHl. inversion K; auto. }
  clear - Ko T1 T2 Hd. induction outs as [|(t', b') outs]; [destruct T1|].
  cbn in Ko. inversion Ko; subst.
  destruct T1 as [T1|T1], T2 as [T2|T2]; auto.
  - congruence.
  - exfalso. apply H1. inversion T1; subst. apply in_map_iff.
    exists (t, b2); split; auto. unfold key; cbn. congruence.
  - exfalso. apply H1. inversion T2; subst. apply in_map_iff.
    exists (t, b1); split; auto. unfold key; cbn. congruence.
Qed.
Print Assumptions C38_one_write_per_disk_and_step.

(** [s_i s <= b] says that block [b] has entered (blocks enter from the last
    to the first). *)
Theorem C38_written_once_after_entering : forall disks m D busy0 s0 n s s',
  ids_up_to D disks -> 1 <= m -> D < length disks ->
  sim_init disks m D busy0 = Some s0 -> sim_steps disks D n s0 s ->
  sim_step disks D s s' ->
  exists b t, s_i s <= b < length disks /\ s_out s b = None /\ s_out s' b = Some t /\
    s_old s <= t <= s_old s + 1 /\
    (forall b', b' <> b -> s_out s' b' = s_out s b') /\ s_i s' <= s_i s.
Proof.
  intros disks m D busy0 s0 n s s' V Hm HD E0 R St.
  pose proof (ids_valid _ _ V) as Hv.
  destruct (init_inv disks D m Hv Hm) with (busy0 := busy0) as (s0' & E0' & I0); [lia|].
  assert (s0' = s0) by congruence. subst s0'.
  destruct (steps_inv disks D m Hv n s0 s R I0) as (outs & I & En).
  destruct (step_inv disks D m Hv _ _ _ I St) as (t & b & e1 & e2 & Ee & I' & _).
  pose proof (i_core _ _ _ _ _ I) as C. pose proof (i_core _ _ _ _ _ I') as C'.
  assert (Inb : In (t, b) (s_events s)) by (rewrite Ee; apply in_or_app; cbn; auto).
  pose proof (core_nodup _ _ _ _ _ _ _ _ _ _ C') as ND.
  exists b, t. csplit.
  - apply (core_lt _ _ _ _ _ _ _ _ _ _ C). apply in_or_app; left.
    apply in_map_iff. exists (t, b); auto.
  - apply (core_lt _ _ _ _ _ _ _ _ _ _ C). apply in_or_app; left.
    apply in_map_iff. exists (t, b); auto.
  - destruct (s_out s b) as [t'|] eqn:E; auto. exfalso.
    apply (c_out _ _ _ _ _ _ _ _ _ _ C) in E.
    rewrite app_assoc in ND. cbn in ND. apply NoDup_remove_2 in ND. apply ND.
    apply in_or_app; right. apply in_map_iff. exists (t', b); auto.
  - apply (c_out _ _ _ _ _ _ _ _ _ _ C'). cbn; auto.
  - apply (c_time _ _ _ _ _ _ _ _ _ _ C) in Inb. lia.
  - apply (c_time _ _ _ _ _ _ _ _ _ _ C) in Inb. lia.
  - intros b' Hb'. destruct (s_out s' b') as [t'|] eqn:E.
    + apply (c_out _ _ _ _ _ _ _ _ _ _ C') in E. destruct E as [E|E]; [congruence|].
      apply (c_out _ _ _ _ _ _ _ _ _ _ C) in E. auto.
    + destruct (s_out s b') as [t'|] eqn:E'; auto.
      apply (c_out _ _ _ _ _ _ _ _ _ _ C) in E'.
      assert (E2 : In (t', b') ((t, b) :: outs)) by (cbn; auto).
      apply (c_out _ _ _ _ _ _ _ _ _ _ C') in E2. congruence.
  - pose proof (Permutation_length (c_perm _ _ _ _ _ _ _ _ _ _ C)) as P.
    inversion St as [? ? f1 t1 b1 f2 Ef _ Hh]; subst.
    unfold handle in Hh.
    destruct (next_block disks D t1 _) as [s2|] eqn:N; [|discriminate].
    assert (A : s_i s2 <= s_i s).
    { clear - N. unfold next_block, put_out, new_time in N. cbn [s_i s_old] in N.
      destruct (s_old s =? t1); cbn [s_i s_busy s_queues s_events s_old s_out] in N;
      (destruct (s_i s) as [|i']; [inversion N; cbn; lia|]);
      (destruct (get_disk i' disks D) as [d|]; [|discriminate]);
      try (destruct (s_busy s d); [inversion N; cbn; lia|]);
      destruct (s_queues s d); inversion N; cbn; lia. }
    assert (B : s_i s' = s_i s2).
    { clear - Hh. unfold next_of_disk in Hh. destruct (get_disk b1 disks D) as [d|]; [|discriminate].
      destruct (s_busy s2 d); [inversion Hh; auto|].
      destruct (s_queues s2 d); inversion Hh; auto. }
    lia.
Qed.
Print Assumptions C38_written_once_after_entering.

(** Blocks that entered and did not leave: [length disks - s_i s] blocks have
    entered, [n] have left. *)
Theorem C38_buffer_bound : forall disks m D busy0 s0 n s,
  ids_up_to D disks -> 1 <= m -> D < length disks ->
  sim_init disks m D busy0 = Some s0 -> sim_steps disks D n s0 s ->
  n <= length disks - s_i s <= n + m.
Proof.
  intros disks m D busy0 s0 n s V Hm HD E0 R.
  pose proof (ids_valid _ _ V) as Hv.
  destruct (init_inv disks D m Hv Hm) with (busy0 := busy0) as (s0' & E0' & I0); [lia|].
  assert (s0' = s0) by congruence. subst s0'.
  destruct (steps_inv disks D m Hv n s0 s R I0) as (outs & I & En).
  pose proof (Permutation_length (c_perm _ _ _ _ _ _ _ _ _ _ (i_core _ _ _ _ _ I))) as P.
  pose proof (i_room _ _ _ _ _ I).
  rewrite !app_length, !map_length, seq_length in P. lia.
Qed.
Print Assumptions C38_buffer_bound.

Example C38_case : forall busy0,
  exists s0 s, sim_init ex_disks 3 1 busy0 = Some s0 /\ s_i s0 = 2 /\
    sim_steps ex_disks 1 3 s0 s /\
    s_out s 1 = Some 2 /\ s_out s 3 = Some 2 /\
    get_disk 1 ex_disks 1 = Some 1 /\ get_disk 3 ex_disks 1 = Some 0 /\ s_i s = 0.
Proof.
  intros busy0. eexists; eexists. split; [cbv; reflexivity|]. split; [reflexivity|]. split.
  - pick (@nil (nat * nat)) 1 4 (@nil (nat * nat)).
    pick (@nil (nat * nat)) 2 3 [(2, 1)].
    pick [(3, 2)] 2 1 (@nil (nat * nat)).
    apply SimStepsNil.
  - csplit; reflexivity.
Qed.
