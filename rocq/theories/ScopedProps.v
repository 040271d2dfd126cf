(** C112: scoped timers of the statistics. *)

From Coq Require Import ZArith List Bool Lia.
From Verif Require Import StatsModel StatsSpec StatsProofs StatsProofs2 StatsProofs3 StatsProps ScopedModel ScopedSpec ScopedProofs.
Import ListNotations.
Local Open Scope Z_scope.

(** Threads whose timers are all destroyed have measured the periods from a start to the next
    stop or the destructor, once each, and nothing else, however their calls are nested. *)
Theorem C112_operations : forall css secss tr,
  Forall2 complete css secss -> Forall no_copy css -> interleave secss tr ->
  interleave (map program (flat_map measured css)) tr.
Proof.
  intros css secss tr F NC H. rewrite flat_map_concat_map, concat_map, map_map.
  apply (il_nest _ secss tr H). clear H. revert NC.
  induction F as [|cs secs css secss C F IH]; intros NC; cbn; constructor.
  - apply complete_il; auto. inversion NC; auto.
  - apply IH. inversion NC; auto.
Qed.
Print Assumptions C112_operations.

Lemma measured_ordinary : forall cs, Forall ordinary (measured cs).
Proof.
  intros cs. unfold measured. generalize 0%nat. generalize (kinds cs).
  induction l as [|k l IH]; intros n; cbn [ops_from]; auto. apply Forall_app. split; auto.
  apply Forall_forall. intros o Ho. apply in_map_iff in Ho. destruct Ho as (((s & t0) & t) & <- & _).
  destruct k; exact I.
Qed.

(** So the statistics contain the sums over these periods, and nothing is left active. *)
Theorem C112_counted : forall css secss tr ds i d,
  Forall2 complete css secss -> Forall no_copy css -> interleave secss tr -> nth_error ds i = Some d ->
  let ops := flat_map measured css in let s := sec_run tr (fresh ds) in
  exists f, nth_error (s_files s) i = Some f /\
    fs_racc f = 0 /\ fs_wacc f = 0 /\
    fs_wtime f = total_time true i ops /\ fs_rtime f = total_time false i ops /\
    fs_wcount f = total_count true i ops mod 2 ^ 32 /\ fs_rcount f = total_count false i ops mod 2 ^ 32 /\
    fs_wbytes f = total_bytes true i ops mod 2 ^ 64 /\ fs_rbytes f = total_bytes false i ops mod 2 ^ 64 /\
    g_t (s_waits s) = sumZ duration (filter is_wait ops).
Proof.
  intros css secss tr ds i d F NC H Hd ops s.
  pose proof (C112_operations _ _ _ F NC H) as J. fold ops in J.
  assert (O : Forall ordinary ops).
  { unfold ops. apply Forall_forall. intros o Ho. apply in_flat_map in Ho. destruct Ho as (cs & _ & Ho).
    pose proof (measured_ordinary cs) as M. rewrite Forall_forall in M. auto. }
  assert (Hf : nth_error (s_files (fresh ds)) i = Some (new_file_stats d)) by (cbn; rewrite nth_error_map, Hd; auto).
  destruct (C61_serial_time ops tr (fresh ds) i _ J O Hf) as (f & A1 & _ & (A2 & A3) & A4 & A5 & A6 & A7 & A8 & A9).
  - split; reflexivity.
  - apply Forall_forall. intros x Hx. cbn in Hx. apply in_map_iff in Hx. destruct Hx as (z & <- & _).
    repeat split; reflexivity.
  - exists f. cbn [new_file_stats fs_wtime fs_rtime fs_wcount fs_rcount fs_wbytes fs_rbytes] in *. rewrite Z.add_0_l in *.
    assert (Q : quiet (fresh ds)).
    { split; [|repeat split]. cbn. apply Forall_forall. intros x Hx. apply in_map_iff in Hx. destruct Hx as (z & <- & _).
      split; reflexivity. }
    destruct (C61_wait_time ops tr (fresh ds) J O Q) as (B & _). cbn [fresh s_waits new_grp g_t] in B.
    rewrite Z.add_0_l in B. csplit; auto.
Qed.
Print Assumptions C112_counted.

(** Starting a timer that runs, or stopping one that does not, does nothing. *)
Theorem C112_idempotent : forall l i t, nth_error l i = Some (Some t) ->
  (t_run t = true -> forall size now, call_step l (CStart i size now) = Some (l, [])) /\
  (t_run t = false -> forall now, call_step l (CStop i now) = Some (l, [])).
Proof.
  assert (P : forall l i t, nth_error l i = Some (Some t) -> put i (Some t) l = l).
  { induction l as [|a l IH]; intros [|i] t H; cbn in *; try discriminate; [congruence|f_equal; auto]. }
  intros l i t H. cbn [call_step]. rewrite H. split; intros R; intros; unfold t_start, t_stop; rewrite R; cbn [negb];
    rewrite P; auto.
Qed.
Print Assumptions C112_idempotent.

(** Two threads; one reads, with a wait inside, the other starts its timer twice, stops it and
    starts it again, and leaves the last stop to the destructor. *)
Definition ex_threads : list (list call) :=
  [[CNew (WIo false 0) 4096 10; CNewOff WaitRead; CStart 1 0 12; CStop 1 15; CDel 1 16; CDel 0 20];
   [CNew (WIo true 0) 512 11; CStart 0 100 12; CStop 0 14; CStop 0 15; CStart 0 64 17; CDel 0 19]].

Example C112_case : exists secss tr, Forall2 complete ex_threads secss /\ Forall no_copy ex_threads /\
  interleave secss tr /\ length tr = 20%nat /\
  flat_map measured ex_threads =
    [OpIO false 0 4096 10 20 false; OpWait WaitRead 12 15; OpIO true 0 512 11 14 false; OpIO true 0 64 17 19 false].
Proof.
  exists [read_started 0 4096 10 ++ [SecWaitUp WaitRead 12; SecWaitDown WaitRead 15] ++ read_finished 0 20;
          write_started 0 512 11 ++ write_finished 0 14 ++ write_started 0 64 17 ++ write_finished 0 19].
  exists ((write_started 0 512 11 ++ write_finished 0 14 ++ write_started 0 64 17 ++ write_finished 0 19) ++
     (read_started 0 4096 10 ++ [SecWaitUp WaitRead 12; SecWaitDown WaitRead 15] ++ read_finished 0 20)).
  csplit.
  - constructor; [|constructor; [|constructor]]; eexists; (split; [reflexivity|]);
      intros o; cbn; intuition congruence.
  - repeat constructor; intros i; cbn; intuition discriminate.
  - match goal with |- interleave [?a; ?b] _ => change [a; b] with ([a] ++ b :: []) end.
    match goal with |- interleave ([?a] ++ ?b :: []) _ => rewrite <- (app_nil_r b) at 1 end.
    apply il_prefix.
    match goal with |- interleave ([?a] ++ [[]]) ?t => change ([a] ++ [[]]) with ([] ++ a :: [[]]); rewrite <- (app_nil_r a) at 1;
      rewrite <- (app_nil_r t) end.
    apply il_prefix. apply IlNil. repeat constructor.
  - reflexivity.
  - reflexivity.
Qed.

(** A copy of a running timer reports the end of an operation it has not begun. *)
Theorem C112_copy_refuted :
  ~ (forall css secss tr ds i f, Forall2 complete css secss -> interleave secss tr ->
      nth_error (s_files (sec_run tr (fresh ds))) i = Some f -> fs_racc f = 0).
Proof.
  intros H.
  set (cs := [CNew (WIo false 0) 8 1; CCopy 0; CDel 1 2; CDel 0 3]).
  set (secs := read_started 0 8 1 ++ read_finished 0 2 ++ read_finished 0 3).
  assert (R : fs_racc (nth 0 (s_files (sec_run secs (fresh [7]))) (new_file_stats 0)) = 0).
  { refine (H [cs] [secs] secs [7] 0%nat _ _ _ eq_refl).
    - constructor; [|constructor]. eexists. split; [reflexivity|]. intros o; cbn; intuition congruence.
    - change [secs] with ([] ++ secs :: []). rewrite <- (app_nil_r secs) at 1. rewrite <- (app_nil_r secs) at 2.
      apply il_prefix. apply IlNil. repeat constructor. }
  vm_compute in R. discriminate.
Qed.
Print Assumptions C112_copy_refuted.

(** scoped_print_timer prints the rate rounded down, when it is defined. *)
Theorem C112_print : forall bytes us, 0 <= bytes -> 0 <= us ->
  match print_end bytes us with
  | PTime t => bytes = 0 /\ t = us
  | PRate t r => 0 < bytes /\ t = us /\ 0 < us /\ 0 <= r < 2 ^ 64 /\ r * us <= bytes * 1000000 < (r + 1) * us
  | PUndefined => 0 < bytes /\ (us = 0 \/ us * 2 ^ 64 <= bytes * 1000000)
  end.
Proof.
  intros bytes us Hb Hu. unfold print_end. destruct (Z.eqb_spec bytes 0) as [->|N]; [auto|].
  destruct (Z.eqb_spec us 0) as [->|U]; [split; [lia|auto]|].
  pose proof (Z.div_mod (bytes * 1000000) us U) as D.
  pose proof (Z.mod_pos_bound (bytes * 1000000) us ltac:(lia)) as M.
  assert (0 <= bytes * 1000000 / us) by (apply Z.div_pos; lia).
  set (r := bytes * 1000000 / us) in *.
  destruct (Z.ltb_spec r (2 ^ 64)) as [L|L].
  - csplit; auto; try lia; nia.
  - split; [lia|]. right. nia.
Qed.
Print Assumptions C112_print.

Example C112_print_case : print_end 4096 3 = PRate 3 1365333333.
Proof. reflexivity. Qed.

(** Bytes processed in no measurable time: the rate is undefined. *)
Theorem C112_print_refuted : ~ (forall bytes us, 0 <= bytes -> 0 <= us -> print_end bytes us <> PUndefined).
Proof. intros H. exact (H 1 0 ltac:(lia) ltac:(lia) eq_refl). Qed.
Print Assumptions C112_print_refuted.
