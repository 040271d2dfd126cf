(** Property C91: the simulation behind the prefetch schedule loses buffers, and
    the schedule is not optimal. *)
From Coq Require Import List Arith Bool Lia Permutation.
From Verif Require Import ScheduleModel ScheduleSpec ScheduleOptSpec ScheduleProofs ScheduleProofs2 ScheduleProps ScheduleOptProofs.
Import ListNotations.

Lemma get_disk_some disks D b : ids_up_to D disks -> b < length disks -> exists e, get_disk b disks D = Some e /\ e <= D.
Proof.
  intros V Hb. unfold get_disk. destruct (nth_error disks b) as [[e|]|] eqn:E.
  - assert (K : e <= D) by (apply V; eapply nth_error_In; exact E).
    rewrite (proj2 (Nat.leb_le e D) K). eauto.
  - eauto.
  - apply nth_error_None in E. lia.
Qed.

Lemma end_disk pre x m D b c : ids_up_to D (pre ++ repeat x (S m)) ->
  length pre <= b < length pre + S m -> length pre <= c < length pre + S m ->
  get_disk b (pre ++ repeat x (S m)) D = get_disk c (pre ++ repeat x (S m)) D.
Proof.
  intros V Hb Hc. unfold get_disk. rewrite !nth_error_app2 by lia.
  assert (G : forall n k, k < n -> nth_error (repeat x n) k = Some x).
  { induction n as [|n IH]; intros k K; [lia|]. destruct k; cbn; [reflexivity|]. apply IH. lia. }
  rewrite !G by lia. reflexivity.
Qed.

Lemma run_end_state pre x m D busy0 s0 n s : let disks := pre ++ repeat x (S m) in
  ids_up_to D disks -> 1 <= m -> sim_init disks m D busy0 = Some s0 -> sim_steps disks D n s0 s ->
  exists d, at_event disks m d n s.
Proof.
  intros disks V Hm E0 R.
  assert (Ln : length disks = length pre + S m) by (unfold disks; rewrite app_length, repeat_length; reflexivity).
  destruct (get_disk_some disks D (length pre) V) as (d & Ed & Hd); [lia|]. exists d.
  refine (at_steps disks m D d _ Hm _ _ Hd busy0 s0 n s E0 R).
  - intros b Hb. destruct (get_disk_some disks D b V Hb) as (e & K & _). eauto.
  - lia.
  - intros b Hb. rewrite <- Ed. apply end_disk; [exact V|lia|lia].
Qed.

(** ** C91 *)

(** If the last [m + 1] blocks are on one disk, the order is that of the blocks,
    whatever the other blocks are: nothing is reordered. *)
Theorem C91_run_at_end_identity : forall pre x m D out,
  ids_up_to D (pre ++ repeat x (S m)) -> 1 <= m ->
  schedule (pre ++ repeat x (S m)) m D out -> out = seq 0 (length (pre ++ repeat x (S m))).
Proof.
  intros pre x m D out V Hm Sc. set (disks := pre ++ repeat x (S m)) in *.
  assert (Ln : length disks = length pre + S m) by (unfold disks; rewrite app_length, repeat_length; reflexivity).
  inversion Sc as [H E|busy0 s0 n s order HD E0 R (Ee & _ & _) W E]; subst; [reflexivity|].
  destruct (run_end_state pre x m D busy0 s0 n s V Hm E0 R) as (d & A). fold disks in A.
  pose proof (at_end disks m d n s A Ee) as Hn. 
  apply (identity_of_times disks m 0 0 Hm ltac:(lia) (le_n 0) (s_out s)); [|exact W].
  intros b Hb. apply (a_out _ _ _ _ _ A); [exact Hb|lia].
Qed.
Print Assumptions C91_run_at_end_identity.

(** The simulation then writes one block in each time step. *)
Theorem C91_one_block_per_step : forall pre x m D busy0 s0 n s,
  ids_up_to D (pre ++ repeat x (S m)) -> 1 <= m -> D < length (pre ++ repeat x (S m)) ->
  sim_init (pre ++ repeat x (S m)) m D busy0 = Some s0 ->
  sim_steps (pre ++ repeat x (S m)) D n s0 s -> s_events s = [] ->
  s_old s = length (pre ++ repeat x (S m)) /\
  forall b, b < length (pre ++ repeat x (S m)) -> s_out s b = Some (length (pre ++ repeat x (S m)) - b).
Proof.
  intros pre x m D busy0 s0 n s V Hm HD E0 R Ee.
  destruct (run_end_state pre x m D busy0 s0 n s V Hm E0 R) as (d & A).
  pose proof (at_end _ m d n s A Ee) as Hn.
  destruct (C36_simulation_terminates _ m D busy0 V Hm HD) as (s0' & E0' & _ & Hall).
  assert (s0' = s0) by congruence. subst s0'. destruct (Hall n s R) as (Hle & _).
  split; [rewrite (a_old _ _ _ _ _ A); lia|].
  intros b Hb. apply (a_out _ _ _ _ _ A); [exact Hb|lia].
Qed.
Print Assumptions C91_one_block_per_step.

(** Every event frees a buffer, and at most one block enters: a buffer that is
    not used at once is not used again.  [length disks - s_i s] blocks have
    entered, [n] have left. *)
Theorem C91_buffers_never_regained : forall disks m D busy0 s0 n s s',
  sim_init disks m D busy0 = Some s0 -> sim_steps disks D n s0 s -> sim_step disks D s s' ->
  length disks - s_i s' - S n <= length disks - s_i s - n.
Proof.
  intros disks m D busy0 s0 n s s' E0 R St. inversion St as [s1 s2 e1 t b e2 Ee Ht Eh]; subst s1 s2.
  assert (K : s_i s <= S (s_i s')).
  { unfold handle in Eh. destruct (next_block disks D t _) as [s1|] eqn:En; [|discriminate].
    assert (K1 : s_i s' = s_i s1).
    { unfold next_of_disk in Eh. destruct (get_disk b disks D) as [e|]; [|discriminate].
      destruct (s_busy s1 e); [injection Eh as <-; reflexivity|].
      destruct (s_queues s1 e); injection Eh as <-; reflexivity. }
    rewrite K1. unfold next_block in En.
    assert (K2 : forall s, s_i (put_out t b (new_time t s)) = s_i s).
    { intros z. unfold put_out, new_time. destruct (s_old z =? t); reflexivity. }
    rewrite K2 in En. cbn [s_i] in En. destruct (s_i s) as [|i'] eqn:Ei; [lia|].
    destruct (get_disk i' disks D) as [e|]; [|discriminate].
    destruct (s_busy _ e); [injection En as <-; cbn; lia|].
    destruct (s_queues _ e); injection En as <-; cbn; lia. }
  lia.
Qed.
Print Assumptions C91_buffers_never_regained.

(** The blocks are spread evenly over [D + 1] disks, only the last [D + 2] are on
    one disk; there are [D + 1] buffers.  The simulation takes as many steps as
    there are blocks, although reading can be done with about [D + 1] times
    fewer. *)
Definition spread (D n : nat) : list (option nat) :=
  map (fun b => Some (b mod (D + 1))) (seq 0 (n * (D + 1))) ++ repeat (Some D) (S (D + 1)).

Theorem C91_simulated_steps_refuted : forall D n,
  let disks := spread D n in let m := D + 1 in
  ids_up_to D disks /\ length disks = n * (D + 1) + D + 2 /\
  (forall busy0 s0 k s, sim_init disks m D busy0 = Some s0 -> sim_steps disks D k s0 s -> s_events s = [] ->
     s_old s = length disks) /\
  exists plan, feasible m (length disks) (fun b => get_disk b disks D) plan /\
    forall b, b < length disks -> plan b <= n + D + 2.
Proof.
  intros D n disks m.
  assert (Ln : length disks = n * (D + 1) + D + 2).
  { unfold disks, spread. rewrite app_length, map_length, seq_length, repeat_length. lia. }
  assert (V : ids_up_to D disks).
  { intros d Hd. unfold disks, spread in Hd. apply in_app_or in Hd. destruct Hd as [Hd|Hd].
    - apply in_map_iff in Hd. destruct Hd as (b & E & _). injection E as <-.
      pose proof (Nat.mod_upper_bound b (D + 1)). lia.
    - apply repeat_spec in Hd. injection Hd as ->. lia. }
  split; [exact V|]. split; [exact Ln|]. split.
  - intros busy0 s0 k s E0 R Ee. apply (C91_one_block_per_step _ _ m D busy0 s0 k s V); auto; [unfold m; lia|change (D < length disks); lia].
  - set (N := n * (D + 1)).
    assert (Dm : forall b, b / (D + 1) * (D + 1) <= b < (b / (D + 1) + 1) * (D + 1)).
    { intros b. pose proof (Nat.div_mod b (D + 1)). pose proof (Nat.mod_upper_bound b (D + 1)). nia. }
    assert (Gd : forall b, b < N -> get_disk b disks D = Some (b mod (D + 1))).
    { intros b Hb. unfold get_disk, disks, spread. rewrite nth_error_app1 by (rewrite map_length, seq_length; exact Hb).
      rewrite (map_nth_error (fun b => Some (b mod (D + 1))) b (seq 0 (n * (D + 1))) (d := b)).
      - pose proof (Nat.mod_upper_bound b (D + 1)). rewrite (proj2 (Nat.leb_le _ D)); [reflexivity|lia].
      - rewrite (nth_error_nth' _ 0) by (rewrite seq_length; exact Hb). rewrite seq_nth by exact Hb. reflexivity. }
    exists (fun b => if b <? N then b / (D + 1) + 1 else n + 1 + (b - N)).
    assert (Hn : forall b, b < N -> b / (D + 1) < n) by (intros b Hb; specialize (Dm b); unfold N in Hb; nia).
    split; [split|].
    + intros b c Hb Hc E Ed.
      destruct (Nat.ltb_spec b N) as [Kb|Kb], (Nat.ltb_spec c N) as [Kc|Kc].
      * rewrite !Gd in Ed by assumption. injection Ed as Ed.
        rewrite (Nat.div_mod b (D + 1)), (Nat.div_mod c (D + 1)) by lia. nia.
      * pose proof (Hn b Kb). lia.
      * pose proof (Hn c Kc). lia.
      * lia.
    + intros b Hb.
      assert (Q : forall K, (forall c, c < length disks ->
         (if c <? N then c / (D + 1) + 1 else n + 1 + (c - N)) <= (if b <? N then b / (D + 1) + 1 else n + 1 + (b - N)) -> c < K) ->
         length (filter (fun c => (if c <? N then c / (D + 1) + 1 else n + 1 + (c - N)) <=?
            (if b <? N then b / (D + 1) + 1 else n + 1 + (b - N))) (seq 0 (length disks))) <= K).
      { intros K HK. transitivity (length (seq 0 K)); [|rewrite seq_length; lia]. apply NoDup_incl_length; [apply NoDup_filter, seq_NoDup|].
        intros c Hc. apply filter_In in Hc. destruct Hc as (Hc1 & Hc2). apply in_seq in Hc1. apply Nat.leb_le in Hc2.
        apply in_seq. split; [lia|]. apply HK; [lia|exact Hc2]. }
      apply Q. intros c Hc K.
      destruct (Nat.ltb_spec b N) as [Kb|Kb], (Nat.ltb_spec c N) as [Kc|Kc].
      * pose proof (Dm b). pose proof (Dm c). unfold m. nia.
      * pose proof (Hn b Kb). lia.
      * unfold m. lia.
      * unfold m. lia.
    + intros b Hb. destruct (Nat.ltb_spec b N) as [Kb|Kb]; [pose proof (Hn b Kb); lia|]. unfold N. lia.
Qed.
Print Assumptions C91_simulated_steps_refuted.

(** The order itself is not the best one: whatever events of equal time are
    taken first, a reader with the three buffers needs six steps with the order
    computed, and five with another. *)
Definition disks91 : list (option nat) := [Some 0; Some 0; Some 1; Some 0; Some 1; Some 1; Some 1; Some 1].
Definition disk91 (b : nat) : nat := match nth b disks91 None with Some d => d | None => 0 end.

Theorem C91_optimal_refuted :
  ids_up_to 1 disks91 /\ (exists out, schedule disks91 3 1 out) /\
  (forall out, schedule disks91 3 1 out -> read_in disk91 3 8 out 6 /\ ~ read_in disk91 3 8 out 5) /\
  all_blocks_once 8 [0; 2; 1; 4; 3; 5; 6; 7] /\ never_starves 3 8 [0; 2; 1; 4; 3; 5; 6; 7] /\
  read_in disk91 3 8 [0; 2; 1; 4; 3; 5; 6; 7] 5.
Proof.
  assert (V : ids_up_to 1 disks91).
  { intros d H. cbn in H. repeat (destruct H as [H|H]; [injection H as <-; lia|]). contradiction. }
  split; [exact V|]. split; [apply C36_schedule_is_permutation; [exact V|lia]|]. split.
  { intros out Sc. apply (C91_run_at_end_identity [Some 0; Some 0; Some 1; Some 0] (Some 1) 3 1 out V) in Sc; [|lia].
    subst out. split; [reflexivity|]. unfold read_in. vm_compute. discriminate. }
  split.
  { unfold all_blocks_once. apply NoDup_Permutation_bis; [repeat constructor; cbn; lia|cbn; lia|].
    intros x Hx. apply in_seq. cbn in Hx. lia. }
  split; [|reflexivity].
  intros k Hk. do 8 (destruct k as [|k]; [cbn; auto 10|]). lia.
Qed.
Print Assumptions C91_optimal_refuted.

(** The hypotheses of the positive statements, with two disks and two buffers. *)
Example C91_case : ids_up_to 1 ([Some 0; Some 1; Some 0] ++ repeat (Some 1) 3) /\
  schedule ([Some 0; Some 1; Some 0] ++ repeat (Some 1) 3) 2 1 [0; 1; 2; 3; 4; 5] /\
  exists s0 n s, sim_init ([Some 0; Some 1; Some 0] ++ repeat (Some 1) 3) 2 1 (fun _ => true) = Some s0 /\
    sim_steps ([Some 0; Some 1; Some 0] ++ repeat (Some 1) 3) 1 n s0 s /\ s_events s = [] /\ s_old s = 6.
Proof.
  assert (V : ids_up_to 1 ([Some 0; Some 1; Some 0] ++ repeat (Some 1) 3)).
  { intros d H. cbn in H. repeat (destruct H as [H|H]; [injection H as <-; lia|]). contradiction. }
  split; [exact V|]. split.
  - destruct (C36_schedule_is_permutation _ 2 1 V) as ((out & Sc) & _); [lia|].
    pose proof (C91_run_at_end_identity _ _ 2 1 out V ltac:(lia) Sc) as E. cbn in E. rewrite <- E. exact Sc.
  - destruct (C36_simulation_terminates _ 2 1 (fun _ => true) V) as (s0 & E0 & (n & s & R & Ee) & _); [lia|cbn; lia|].
    exists s0, n, s. split; [exact E0|]. split; [exact R|]. split; [exact Ee|].
    apply (C91_one_block_per_step _ _ 2 1 (fun _ => true) s0 n s V); auto; cbn; lia.
Qed.
