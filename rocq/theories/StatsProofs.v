(** Proofs about the statistics counters: C61 (serial times). *)

From Coq Require Import ZArith List Bool Lia Permutation.
From Verif Require Import StatsModel StatsSpec.
Import ListNotations.
Local Open Scope Z_scope.

Local Arguments Z.add : simpl never.
Local Arguments Z.sub : simpl never.
Local Arguments Z.mul : simpl never.
Local Arguments Z.opp : simpl never.

Ltac csplit := repeat match goal with |- _ /\ _ => split end.

(** ** Sums *)

Lemma sumZ_app : forall A (f : A -> Z) l1 l2,
  sumZ f (l1 ++ l2) = sumZ f l1 + sumZ f l2.
Proof. intros A f l1 l2; induction l1; cbn; [auto|]. unfold sumZ in *; cbn. lia. Qed.

Lemma sumZ_perm : forall A (f : A -> Z) l1 l2,
  Permutation l1 l2 -> sumZ f l1 = sumZ f l2.
Proof. intros A f l1 l2 P; induction P; cbn in *; unfold sumZ in *; cbn; lia. Qed.

Lemma sumZ_flat_map : forall A B (f : B -> Z) (h : A -> list B) l,
  sumZ f (flat_map h l) = sumZ (fun a => sumZ f (h a)) l.
Proof.
  intros; induction l; auto. cbn [flat_map]. rewrite sumZ_app, IHl. reflexivity.
Qed.

Lemma sumZ_concat_map : forall A B (f : B -> Z) (h : A -> list B) l,
  sumZ f (concat (map h l)) = sumZ (fun a => sumZ f (h a)) l.
Proof. intros. rewrite <- flat_map_concat_map. apply sumZ_flat_map. Qed.

Lemma sumZ_ext : forall A (f g : A -> Z) l,
  (forall a, In a l -> f a = g a) -> sumZ f l = sumZ g l.
Proof.
  intros A f g l H; induction l; auto. unfold sumZ in *; cbn.
  rewrite H by (left; auto). rewrite IHl; auto. intros; apply H; right; auto.
Qed.

Lemma sumZ_filter : forall A (f : A -> Z) (k : A -> bool) l,
  sumZ f (filter k l) = sumZ (fun a => if k a then f a else 0) l.
Proof.
  intros; induction l; auto. cbn. destruct (k a); unfold sumZ in *; cbn; lia.
Qed.

Lemma length_sumZ : forall A (l : list A), Z.of_nat (length l) = sumZ (fun _ => 1) l.
Proof. intros; induction l; auto. unfold sumZ in *; cbn [length fold_right]. lia. Qed.

Lemma interleave_perm : forall A (ps : list (list A)) tr,
  interleave ps tr -> Permutation tr (concat ps).
Proof.
  intros A ps tr H; induction H.
  - replace (concat ps) with (@nil A); auto.
    induction H; auto. subst; cbn; auto.
  - rewrite concat_app in *; cbn in *.
    apply Permutation_trans with (a :: concat ps1 ++ p ++ concat ps2); auto.
    apply Permutation_middle.
Qed.

(** ** What one section adds to a file's write / read side *)

Definition hit (i j : nat) (x : Z) : Z := if Nat.eqb j i then x else 0.

Definition w_time (i : nat) (c : section) : Z :=
  match c with
  | SecWStart j _ now => hit i j (- now)
  | SecWFinish j now => hit i j now
  | SecWOp j _ d => hit i j d
  | _ => 0
  end.
Definition w_acc (i : nat) (c : section) : Z :=
  match c with
  | SecWStart j _ _ => hit i j 1 | SecWFinish j _ => hit i j (-1) | _ => 0
  end.
Definition w_count (i : nat) (c : section) : Z :=
  match c with
  | SecWStart j _ _ => hit i j 1 | SecWCancel j _ => hit i j (-1)
  | SecWOp j _ _ => hit i j 1 | _ => 0
  end.
Definition w_bytes (i : nat) (c : section) : Z :=
  match c with
  | SecWStart j z _ => hit i j z | SecWCancel j z => hit i j (- z)
  | SecWOp j z _ => hit i j z | _ => 0
  end.
Definition r_time (i : nat) (c : section) : Z :=
  match c with
  | SecRStart j _ now => hit i j (- now)
  | SecRFinish j now => hit i j now
  | SecROp j _ d => hit i j d
  | _ => 0
  end.
Definition r_acc (i : nat) (c : section) : Z :=
  match c with
  | SecRStart j _ _ => hit i j 1 | SecRFinish j _ => hit i j (-1) | _ => 0
  end.
Definition r_count (i : nat) (c : section) : Z :=
  match c with
  | SecRStart j _ _ => hit i j 1 | SecRCancel j _ => hit i j (-1)
  | SecROp j _ _ => hit i j 1 | _ => 0
  end.
Definition r_bytes (i : nat) (c : section) : Z :=
  match c with
  | SecRStart j z _ => hit i j z | SecRCancel j z => hit i j (- z)
  | SecROp j z _ => hit i j z | _ => 0
  end.

(** Relation of a file before and after some sections. *)
Definition file_rel (f f' : file_stats) (wt wa wc wb rt ra rc rb : Z) : Prop :=
  fs_dev f' = fs_dev f /\
  fs_wtime f' - fs_wacc f' * fs_wbegin f' = fs_wtime f - fs_wacc f * fs_wbegin f + wt /\
  fs_wacc f' = fs_wacc f + wa /\
  u32 (fs_wcount f') = u32 (fs_wcount f + wc) /\
  u64 (fs_wbytes f') = u64 (fs_wbytes f + wb) /\
  fs_rtime f' - fs_racc f' * fs_rbegin f' = fs_rtime f - fs_racc f * fs_rbegin f + rt /\
  fs_racc f' = fs_racc f + ra /\
  u32 (fs_rcount f') = u32 (fs_rcount f + rc) /\
  u64 (fs_rbytes f') = u64 (fs_rbytes f + rb).

Lemma u32_u32 : forall x, u32 (u32 x) = u32 x.
Proof. intros; unfold u32. apply Z.mod_mod. discriminate. Qed.
Lemma u64_u64 : forall x, u64 (u64 x) = u64 x.
Proof. intros; unfold u64. apply Z.mod_mod. discriminate. Qed.
Lemma u32_add : forall x y, u32 (u32 x + y) = u32 (x + y).
Proof. intros; unfold u32. apply Zplus_mod_idemp_l. Qed.
Lemma u64_add : forall x y, u64 (u64 x + y) = u64 (x + y).
Proof. intros; unfold u64. apply Zplus_mod_idemp_l. Qed.

Lemma nth_upd : forall l i j h f,
  nth_error l i = Some f ->
  nth_error (upd j h l) i = Some (if Nat.eqb j i then h f else f).
Proof.
  intros l; induction l; intros i j h f H.
  - destruct i; discriminate.
  - destruct i, j; cbn in *; try congruence. apply IHl; auto.
Qed.

Lemma file_rel_trans : forall f g h a1 a2 a3 a4 a5 a6 a7 a8 b1 b2 b3 b4 b5 b6 b7 b8,
  file_rel f g a1 a2 a3 a4 a5 a6 a7 a8 ->
  file_rel g h b1 b2 b3 b4 b5 b6 b7 b8 ->
  file_rel f h (a1+b1) (a2+b2) (a3+b3) (a4+b4) (a5+b5) (a6+b6) (a7+b7) (a8+b8).
Proof.
  unfold file_rel; intros until 2.
  destruct H as (?&?&?&C1&B1&?&?&C2&B2), H0 as (?&?&?&C3&B3&?&?&C4&B4).
  csplit; try lia.
  - rewrite C3, <- u32_add, C1, u32_add. f_equal; lia.
  - rewrite B3, <- u64_add, B1, u64_add. f_equal; lia.
  - rewrite C4, <- u32_add, C2, u32_add. f_equal; lia.
  - rewrite B4, <- u64_add, B2, u64_add. f_equal; lia.
Qed.

Lemma sec_file : forall c s i f,
  nth_error (s_files s) i = Some f ->
  exists f', nth_error (s_files (sec_step c s)) i = Some f' /\
    file_rel f f' (w_time i c) (w_acc i c) (w_count i c) (w_bytes i c)
                  (r_time i c) (r_acc i c) (r_count i c) (r_bytes i c).
Proof.
  intros c s i f H.
  destruct c; cbn [sec_step on_file on_reads on_writes on_ios on_waits s_files];
    try (exists f; split; [exact H|]; unfold file_rel; cbn;
         csplit; try lia; f_equal; lia);
    (eexists; split; [apply nth_upd; exact H|]);
    unfold w_time, w_acc, w_count, w_bytes, r_time, r_acc, r_count, r_bytes, hit;
    destruct (Nat.eqb file i); unfold file_rel;
    cbn [fs_dev fs_wtime fs_wacc fs_wbegin fs_wcount fs_wbytes
         fs_rtime fs_racc fs_rbegin fs_rcount fs_rbytes
         sec_write_started sec_write_canceled sec_write_finished
         sec_write_op_finished sec_read_started sec_read_canceled
         sec_read_finished sec_read_op_finished];
    rewrite ?u32_u32, ?u64_u64; csplit; try lia; f_equal; lia.
Qed.

Lemma run_file : forall tr s i f,
  nth_error (s_files s) i = Some f ->
  exists f', nth_error (s_files (sec_run tr s)) i = Some f' /\
    file_rel f f' (sumZ (w_time i) tr) (sumZ (w_acc i) tr) (sumZ (w_count i) tr)
      (sumZ (w_bytes i) tr) (sumZ (r_time i) tr) (sumZ (r_acc i) tr)
      (sumZ (r_count i) tr) (sumZ (r_bytes i) tr).
Proof.
  intros tr; induction tr; intros s i f H.
  - exists f; split; [exact H|]. unfold file_rel; cbn. csplit; try lia; f_equal; lia.
  - destruct (sec_file a s i f H) as (g & G & R).
    destruct (IHtr _ _ _ G) as (h & E & R2).
    exists h; split; [exact E|].
    exact (file_rel_trans _ _ _ _ _ _ _ _ _ _ _ _ _ _ _ _ _ _ _ R R2).
Qed.

(** ** Sums over a whole program *)

Ltac prog o :=
  destruct o as [[] j sz st fi []|[] j sz d|[] j sz nw|w st fi]; cbn;
  unfold hit; try destruct (Nat.eqb j _); try lia.

Lemma prog_w : forall i o, ordinary o ->
  sumZ (w_time i) (program o) = (if on_dir true i o then duration o else 0) /\
  sumZ (w_acc i) (program o) = 0 /\
  sumZ (w_count i) (program o) = (if on_dir true i o then if moved o then 1 else 0 else 0) /\
  sumZ (w_bytes i) (program o) = (if on_dir true i o then if moved o then size_of o else 0 else 0).
Proof.
  intros i o O. destruct o; cbn in O; try contradiction; clear O.
  - csplit; destruct write, cancelled; cbn; unfold hit;
      destruct (Nat.eqb file i); cbn; lia.
  - csplit; destruct write; cbn; unfold hit; destruct (Nat.eqb file i); cbn; lia.
  - csplit; cbn; lia.
Qed.

Lemma prog_r : forall i o, ordinary o ->
  sumZ (r_time i) (program o) = (if on_dir false i o then duration o else 0) /\
  sumZ (r_acc i) (program o) = 0 /\
  sumZ (r_count i) (program o) = (if on_dir false i o then if moved o then 1 else 0 else 0) /\
  sumZ (r_bytes i) (program o) = (if on_dir false i o then if moved o then size_of o else 0 else 0).
Proof.
  intros i o O. destruct o; cbn in O; try contradiction; clear O.
  - csplit; destruct write, cancelled; cbn; unfold hit;
      destruct (Nat.eqb file i); cbn; lia.
  - csplit; destruct write; cbn; unfold hit; destruct (Nat.eqb file i); cbn; lia.
  - csplit; cbn; lia.
Qed.

Lemma sum_programs : forall (h : section -> Z) (k : op -> Z) ops tr,
  interleave (map program ops) tr ->
  Forall ordinary ops ->
  (forall o, ordinary o -> sumZ h (program o) = k o) ->
  sumZ h tr = sumZ k ops.
Proof.
  intros h k ops tr I O E.
  rewrite (sumZ_perm _ h _ _ (interleave_perm _ _ _ I)), sumZ_concat_map.
  apply sumZ_ext. intros a A. apply E. rewrite Forall_forall in O; auto.
Qed.

Lemma sumZ_zero : forall A (l : list A), sumZ (fun _ => 0) l = 0.
Proof. intros; induction l; auto. Qed.

Lemma total_time_sum : forall w i ops,
  total_time w i ops = sumZ (fun o => if on_dir w i o then duration o else 0) ops.
Proof. intros; unfold total_time. apply sumZ_filter. Qed.

Lemma total_count_sum : forall w i ops,
  total_count w i ops =
  sumZ (fun o => if on_dir w i o then if moved o then 1 else 0 else 0) ops.
Proof.
  intros; unfold total_count. rewrite length_sumZ, !sumZ_filter.
  apply sumZ_ext; intros. destruct (on_dir w i a); auto.
Qed.

Lemma total_bytes_sum : forall w i ops,
  total_bytes w i ops =
  sumZ (fun o => if on_dir w i o then if moved o then size_of o else 0 else 0) ops.
Proof.
  intros; unfold total_bytes. rewrite !sumZ_filter.
  apply sumZ_ext; intros. destruct (on_dir w i a); auto.
Qed.

Lemma serial_times : forall ops tr s i f,
  interleave (map program ops) tr -> Forall ordinary ops ->
  nth_error (s_files s) i = Some f -> quiet_file f ->
  exists f', nth_error (s_files (sec_run tr s)) i = Some f' /\
    fs_dev f' = fs_dev f /\ quiet_file f' /\
    fs_wtime f' = fs_wtime f + total_time true i ops /\
    fs_rtime f' = fs_rtime f + total_time false i ops /\
    u32 (fs_wcount f') = u32 (fs_wcount f + total_count true i ops) /\
    u32 (fs_rcount f') = u32 (fs_rcount f + total_count false i ops) /\
    u64 (fs_wbytes f') = u64 (fs_wbytes f + total_bytes true i ops) /\
    u64 (fs_rbytes f') = u64 (fs_rbytes f + total_bytes false i ops).
Proof.
  intros ops tr s i f I O F Q.
  destruct (run_file tr s i f F) as (f' & F' & R).
  exists f'; split; [exact F'|].
  destruct R as (D&WT&WA&WC&WB&RT&RA&RC&RB).
  destruct Q as (Q1&Q2).
  rewrite (sum_programs _ _ ops tr I O (fun o H => proj1 (prog_w i o H))) in WT.
  rewrite (sum_programs _ _ ops tr I O (fun o H => proj1 (proj2 (prog_w i o H)))) in WA.
  rewrite (sum_programs _ _ ops tr I O (fun o H => proj1 (proj2 (proj2 (prog_w i o H))))) in WC.
  rewrite (sum_programs _ _ ops tr I O (fun o H => proj2 (proj2 (proj2 (prog_w i o H))))) in WB.
  rewrite (sum_programs _ _ ops tr I O (fun o H => proj1 (prog_r i o H))) in RT.
  rewrite (sum_programs _ _ ops tr I O (fun o H => proj1 (proj2 (prog_r i o H)))) in RA.
  rewrite (sum_programs _ _ ops tr I O (fun o H => proj1 (proj2 (proj2 (prog_r i o H))))) in RC.
  rewrite (sum_programs _ _ ops tr I O (fun o H => proj2 (proj2 (proj2 (prog_r i o H))))) in RB.
  rewrite sumZ_zero in WA, RA.
  rewrite <- total_time_sum in WT, RT. rewrite <- total_count_sum in WC, RC.
  rewrite <- total_bytes_sum in WB, RB.
  assert (W0 : fs_wacc f' = 0) by lia. assert (R0 : fs_racc f' = 0) by lia.
  rewrite W0, Q2 in WT. rewrite R0, Q1 in RT.
  csplit; auto; try lia. split; auto.
Qed.

(** ** Counters stay in range *)

Definition ranged (f : file_stats) : Prop :=
  u32 (fs_wcount f) = fs_wcount f /\ u32 (fs_rcount f) = fs_rcount f /\
  u64 (fs_wbytes f) = fs_wbytes f /\ u64 (fs_rbytes f) = fs_rbytes f.

Lemma upd_forall : forall (P : file_stats -> Prop) h i l,
  Forall P l -> (forall f, P f -> P (h f)) -> Forall P (upd i h l).
Proof.
  intros P h i l F H; revert i; induction F; intros; destruct i; cbn; auto.
Qed.

Lemma sec_ranged : forall c s,
  Forall ranged (s_files s) -> Forall ranged (s_files (sec_step c s)).
Proof.
  intros c s F; destruct c; cbn; auto; apply upd_forall; auto;
    intros f (?&?&?&?); unfold ranged; cbn; rewrite ?u32_u32, ?u64_u64; auto.
Qed.

Lemma run_ranged : forall tr s,
  Forall ranged (s_files s) -> Forall ranged (s_files (sec_run tr s)).
Proof. intros tr; induction tr; intros; cbn; auto. apply IHtr, sec_ranged; auto. Qed.

(** ** Serial waiting times *)

Definition gt_rel (g g' : grp) (t a : Z) : Prop :=
  g_t g' - g_a g' * g_b g' = g_t g - g_a g * g_b g + t /\ g_a g' = g_a g + a.

Definition wt_time (k : wait_op -> bool) (c : section) : Z :=
  match c with
  | SecWaitUp w t => if k w then - t else 0
  | SecWaitDown w t => if k w then t else 0
  | _ => 0
  end.
Definition wt_acc (k : wait_op -> bool) (c : section) : Z :=
  match c with
  | SecWaitUp w t => if k w then 1 else 0
  | SecWaitDown w t => if k w then -1 else 0
  | _ => 0
  end.
Definition k_all (w : wait_op) := true.
Definition k_read (w : wait_op) := match w with WaitRead => true | _ => false end.
Definition k_other (w : wait_op) := match w with WaitRead => false | _ => true end.

Lemma run_waits : forall tr s,
  let s' := sec_run tr s in
  gt_rel (s_waits s) (s_waits s') (sumZ (wt_time k_all) tr) (sumZ (wt_acc k_all) tr) /\
  gt_rel (s_wread s) (s_wread s') (sumZ (wt_time k_read) tr) (sumZ (wt_acc k_read) tr) /\
  gt_rel (s_wwrite s) (s_wwrite s') (sumZ (wt_time k_other) tr) (sumZ (wt_acc k_other) tr).
Proof.
  intros tr; induction tr; intros s; cbn [sec_run].
  - unfold gt_rel; cbn. csplit; lia.
  - specialize (IHtr (sec_step a s)). cbv zeta in *.
    destruct IHtr as ((A1&A2)&(B1&B2)&(C1&C2)).
    unfold gt_rel; rewrite A1, A2, B1, B2, C1, C2.
    unfold sumZ; cbn [fold_right]. clear.
    destruct a; cbn; try (csplit; lia); destruct w; cbn; csplit; lia.
Qed.

Lemma serial_waits : forall ops tr s,
  interleave (map program ops) tr -> Forall ordinary ops -> quiet s ->
  let s' := sec_run tr s in
  g_t (s_waits s') = g_t (s_waits s) + sumZ duration (filter is_wait ops) /\
  g_t (s_wread s') = g_t (s_wread s) + sumZ duration (filter is_wait_read ops) /\
  g_t (s_wwrite s') = g_t (s_wwrite s) + sumZ duration (filter is_wait_other ops) /\
  g_a (s_waits s') = 0 /\ g_a (s_wread s') = 0 /\ g_a (s_wwrite s') = 0.
Proof.
  intros ops tr s I O Q. cbv zeta.
  destruct Q as (_&_&_&_&Q1&Q2&Q3).
  destruct (run_waits tr s) as ((A1&A2)&(B1&B2)&(C1&C2)).
  assert (E : forall (h : section -> Z) (k : op -> bool),
    (forall o, ordinary o -> sumZ h (program o) = if k o then duration o else 0) ->
    sumZ h tr = sumZ duration (filter k ops)).
  { intros h k H. rewrite sumZ_filter. apply sum_programs; auto. }
  assert (Z0 : forall (h : section -> Z),
    (forall o, ordinary o -> sumZ h (program o) = 0) -> sumZ h tr = 0).
  { intros h H. rewrite (sum_programs h (fun _ => 0) ops tr); auto. apply sumZ_zero. }
  rewrite (E _ is_wait) in A1
    by (intros o _; destruct o as [[] j sz st fi []|[] j sz d|[] j sz nw|[] st fi]; cbn; lia).
  rewrite (E _ is_wait_read) in B1
    by (intros o _; destruct o as [[] j sz st fi []|[] j sz d|[] j sz nw|[] st fi]; cbn; lia).
  rewrite (E _ is_wait_other) in C1
    by (intros o _; destruct o as [[] j sz st fi []|[] j sz d|[] j sz nw|[] st fi]; cbn; lia).
  rewrite Z0 in A2
    by (intros o _; destruct o as [[] j sz st fi []|[] j sz d|[] j sz nw|[] st fi]; cbn; lia).
  rewrite Z0 in B2
    by (intros o _; destruct o as [[] j sz st fi []|[] j sz d|[] j sz nw|[] st fi]; cbn; lia).
  rewrite Z0 in C2
    by (intros o _; destruct o as [[] j sz st fi []|[] j sz d|[] j sz nw|[] st fi]; cbn; lia).
  assert (g_a (s_waits (sec_run tr s)) = 0) by lia.
  assert (g_a (s_wread (sec_run tr s)) = 0) by lia.
  assert (g_a (s_wwrite (sec_run tr s)) = 0) by lia.
  csplit; auto.
  - rewrite H, Q1 in A1; lia.
  - rewrite H0, Q2 in B1; lia.
  - rewrite H1, Q3 in C1; lia.
Qed.
