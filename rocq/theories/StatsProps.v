(** Properties C61-C64: I/O statistics. *)

From Coq Require Import ZArith List Bool Lia Permutation.
From Verif Require Import StatsModel StatsSpec StatsProofs StatsProofs2 StatsProofs3.
Import ListNotations.
Local Open Scope Z_scope.

Local Arguments Z.add : simpl never.
Local Arguments Z.sub : simpl never.

(** * C61: serial I/O time is the sum of operation durations *)

Theorem C61_serial_time : forall ops tr s i f,
  interleave (map program ops) tr -> Forall ordinary ops ->
  nth_error (s_files s) i = Some f -> quiet_file f ->
  Forall ranged (s_files s) ->
  exists f', nth_error (s_files (sec_run tr s)) i = Some f' /\
    fs_dev f' = fs_dev f /\ quiet_file f' /\
    fs_wtime f' = fs_wtime f + total_time true i ops /\
    fs_rtime f' = fs_rtime f + total_time false i ops /\
    fs_wcount f' = (fs_wcount f + total_count true i ops) mod 2 ^ 32 /\
    fs_rcount f' = (fs_rcount f + total_count false i ops) mod 2 ^ 32 /\
    fs_wbytes f' = (fs_wbytes f + total_bytes true i ops) mod 2 ^ 64 /\
    fs_rbytes f' = (fs_rbytes f + total_bytes false i ops) mod 2 ^ 64.
Proof.
  intros ops tr s i f I O F Q R.
  destruct (serial_times ops tr s i f I O F Q) as (f' & F' & D & Q' & A & B & C1 & C2 & B1 & B2).
  assert (R' := run_ranged tr s R). rewrite Forall_forall in R'.
  destruct (R' f' (nth_error_In _ _ F')) as (R1 & R2 & R3 & R4).
  exists f'. csplit; auto.
  - rewrite <- R1; exact C1.
  - rewrite <- R2; exact C2.
  - rewrite <- R3; exact B1.
  - rewrite <- R4; exact B2.
Qed.

(** Three overlapping writes on one file, one of them cancelled, and a read;
    the second write enters its critical section before the first although
    its time stamp is later. *)
Definition ex_ops : list op :=
  [OpIO true 0 4096 10 30 false; OpIO true 0 512 12 25 false;
   OpIO true 0 100 20 21 true; OpIO false 0 8192 5 40 false].

Definition ex_tr : list section :=
  read_started 0 8192 5 ++
  [SecWStart 0 512 12; SecWStart 0 4096 10; SecPWriteUp 10; SecIoUp 10;
   SecPWriteUp 12; SecIoUp 12] ++
  write_started 0 100 20 ++ write_canceled 0 100 21 ++
  write_finished 0 25 ++ write_finished 0 30 ++ read_finished 0 40.

Ltac il_step k :=
  unfold write_started, write_canceled, write_finished,
    read_started, read_canceled, read_finished;
  lazymatch goal with
  | |- interleave ?ps (?a :: ?tr) =>
      let p1 := eval cbn in (firstn k ps) in
      let p2 := eval cbn in (skipn k ps) in
      lazymatch p2 with
      | (?b :: ?p) :: ?rest =>
          change (interleave (p1 ++ (a :: p) :: rest) (a :: tr));
          apply IlStep; cbn [app]
      end
  end.

Lemma ex_interleave : interleave (map program ex_ops) ex_tr.
Proof.
  unfold ex_ops, ex_tr. cbn.
  do 3 il_step 3%nat. il_step 1%nat. il_step 0%nat. il_step 0%nat. il_step 0%nat.
  il_step 1%nat. il_step 1%nat.
  do 7 il_step 2%nat. do 3 il_step 1%nat. do 3 il_step 0%nat. do 3 il_step 3%nat.
  apply IlNil. repeat constructor.
Qed.

Lemma ex_ordinary : Forall ordinary ex_ops.
Proof. unfold ex_ops. repeat constructor. Qed.

Example C61_serial_time_ex :
  exists f', nth_error (s_files (sec_run ex_tr (fresh [7]))) 0 = Some f' /\
    fs_wtime f' = 20 + 13 + 1 /\ fs_rtime f' = 35 /\
    fs_wcount f' = 2 /\ fs_wbytes f' = 4608.
Proof.
  destruct (C61_serial_time ex_ops ex_tr (fresh [7]) 0 (new_file_stats 7))
    as (f' & F & _ & _ & A & B & C & _ & D & _).
  - apply ex_interleave.
  - apply ex_ordinary.
  - reflexivity.
  - split; reflexivity.
  - repeat constructor.
  - exists f'. rewrite A, B, C, D. csplit; auto.
Qed.
Print Assumptions C61_serial_time.

(** The getters of a snapshot: get_read_time() and get_write_time() sum over
    all files (iostats.cpp:384-390, 561, 576). *)
Lemma fold_sumZ : forall A (f : A -> Z) l z,
  fold_left (fun acc x => acc + f x) l z = z + sumZ f l.
Proof.
  intros A f l; induction l; intros; cbn.
  - unfold sumZ; cbn; lia.
  - rewrite IHl. unfold sumZ; cbn. lia.
Qed.

Lemma sumZ_plus : forall A (f g : A -> Z) l,
  sumZ (fun a => f a + g a) l = sumZ f l + sumZ g l.
Proof. intros; induction l; auto. unfold sumZ in *; cbn. lia. Qed.

Lemma sumZ_swap : forall A B (f : A -> B -> Z) la lb,
  sumZ (fun a => sumZ (f a) lb) la = sumZ (fun b => sumZ (fun a => f a b) la) lb.
Proof.
  intros; induction la.
  - cbn. symmetry; apply sumZ_zero.
  - unfold sumZ at 1; cbn [fold_right]. fold (sumZ (fun a => sumZ (f a) lb) la).
    rewrite IHla, <- sumZ_plus. reflexivity.
Qed.

Lemma sum_hit : forall n j x, (j < n)%nat ->
  sumZ (fun i => if Nat.eqb j i then x else 0) (seq 0 n) = x.
Proof.
  intros n j x H. replace n with (j + (1 + (n - j - 1)))%nat by lia.
  rewrite !seq_app, !sumZ_app.
  rewrite (sumZ_ext _ _ (fun _ => 0) (seq 0 j)).
  2:{ intros a A. apply in_seq in A. destruct (Nat.eqb_spec j a); auto; lia. }
  rewrite (sumZ_ext _ _ (fun _ => 0) (seq (0 + j + 1) (n - j - 1))).
  2:{ intros a A. apply in_seq in A. destruct (Nat.eqb_spec j a); auto; lia. }
  rewrite !sumZ_zero. unfold sumZ; cbn. rewrite Nat.eqb_refl. lia.
Qed.

Lemma sum_files : forall w (k : op -> Z) ops n,
  Forall ordinary ops ->
  (forall o, In o ops -> is_wait o = false -> (file_of o < n)%nat) ->
  sumZ (fun i => sumZ (fun o => if on_dir w i o then k o else 0) ops) (seq 0 n) =
  sumZ k (filter (in_dir w) ops).
Proof.
  intros w k ops n O V.
  rewrite sumZ_swap, sumZ_filter. apply sumZ_ext. intros o Io.
  rewrite Forall_forall in O. specialize (O o Io).
  destruct (is_wait o) eqn:W.
  - destruct o; try discriminate. cbn. apply sumZ_zero.
  - specialize (V o Io W). destruct o; try discriminate; try contradiction; cbn in V |- *.
    + destruct (eqb write w); cbn [andb]; [apply sum_hit; auto|apply sumZ_zero].
    + destruct (eqb write w); cbn [andb]; [apply sum_hit; auto|apply sumZ_zero].
Qed.

Lemma total_all : forall w ops n,
  Forall ordinary ops ->
  (forall o, In o ops -> is_wait o = false -> (file_of o < n)%nat) ->
  sumZ (fun i => total_time w i ops) (seq 0 n) = sumZ duration (filter (in_dir w) ops) /\
  sumZ (fun i => total_count w i ops) (seq 0 n) =
    Z.of_nat (length (filter moved (filter (in_dir w) ops))) /\
  sumZ (fun i => total_bytes w i ops) (seq 0 n) =
    sumZ size_of (filter moved (filter (in_dir w) ops)).
Proof.
  intros w ops n O V. csplit.
  - rewrite <- (sum_files w duration ops n); auto.
    apply sumZ_ext; intros; apply total_time_sum.
  - rewrite length_sumZ, sumZ_filter.
    rewrite <- (sum_files w (fun o => if moved o then 1 else 0) ops n); auto.
    apply sumZ_ext; intros; apply total_count_sum.
  - rewrite sumZ_filter.
    rewrite <- (sum_files w (fun o => if moved o then size_of o else 0) ops n); auto.
    apply sumZ_ext; intros; apply total_bytes_sum.
Qed.

Lemma fold_mod : forall A (f : A -> Z) m l z, 0 < m ->
  z mod m = z -> fold_left (fun acc x => (acc + f x) mod m) l z = (z + sumZ f l) mod m.
Proof.
  intros A f m l z M. revert z. induction l; intros z Z0; cbn.
  - unfold sumZ; cbn. rewrite Z.add_0_r; auto.
  - rewrite IHl by (rewrite Z.mod_mod; lia).
    unfold sumZ; cbn [fold_right]. rewrite Zplus_mod_idemp_l. f_equal; lia.
Qed.

Lemma sum_mod : forall A (f : A -> Z) m l,
  sumZ (fun a => f a mod m) l mod m = sumZ f l mod m.
Proof.
  intros; induction l; auto. unfold sumZ; cbn [fold_right].
  rewrite Zplus_mod_idemp_l, <- Zplus_mod_idemp_r. unfold sumZ in IHl.
  rewrite IHl. apply Zplus_mod_idemp_r.
Qed.

Lemma sum_nth : forall A (f : A -> Z) (g : nat -> Z) l k,
  (forall i a, nth_error l i = Some a -> f a = g (k + i)%nat) ->
  sumZ f l = sumZ g (seq k (length l)).
Proof.
  intros A f g l; induction l; intros k H; auto.
  cbn [length seq]. unfold sumZ; cbn [fold_right].
  rewrite (H O a eq_refl), Nat.add_0_r. f_equal.
  apply IHl. intros i b N. rewrite (H (S i) b N). f_equal; lia.
Qed.

Theorem C61_getters : forall ops tr ds creation now,
  interleave (map program ops) tr -> Forall ordinary ops ->
  (forall o, In o ops -> is_wait o = false -> (file_of o < length ds)%nat) ->
  let x := snapshot creation now (sec_run tr (fresh ds)) in
  let n_moved w := Z.of_nat (length (filter moved (filter (in_dir w) ops))) in
  let b_moved w := sumZ size_of (filter moved (filter (in_dir w) ops)) in
  sd_read_time x = sumZ duration (filter (in_dir false) ops) /\
  sd_write_time x = sumZ duration (filter (in_dir true) ops) /\
  sd_read_count x = n_moved false mod 2 ^ 32 /\
  sd_write_count x = n_moved true mod 2 ^ 32 /\
  sd_read_bytes x = b_moved false mod 2 ^ 64 /\
  sd_write_bytes x = b_moved true mod 2 ^ 64.
Proof.
  intros ops tr ds creation now I O V. cbv zeta.
  assert (LEN : length (s_files (sec_run tr (fresh ds))) = length ds).
  { rewrite <- (map_length fs_dev), run_devs. cbn. rewrite map_map, map_length; auto. }
  assert (K : forall i f', nth_error (s_files (sec_run tr (fresh ds))) i = Some f' ->
    fs_wtime f' = total_time true i ops /\ fs_rtime f' = total_time false i ops /\
    fs_wcount f' = total_count true i ops mod 2 ^ 32 /\
    fs_rcount f' = total_count false i ops mod 2 ^ 32 /\
    fs_wbytes f' = total_bytes true i ops mod 2 ^ 64 /\
    fs_rbytes f' = total_bytes false i ops mod 2 ^ 64).
  { intros i f' F'.
    assert (L : (i < length ds)%nat)
      by (rewrite <- LEN; apply nth_error_Some; congruence).
    destruct (nth_error ds i) as [d|] eqn:D; [|apply nth_error_None in D; lia].
    destruct (C61_serial_time ops tr (fresh ds) i (new_file_stats d) I O)
      as (f2 & F2 & _ & _ & A & B & C1 & C2 & B1 & B2).
    - cbn. rewrite nth_error_map, D. reflexivity.
    - split; reflexivity.
    - cbn. apply Forall_forall. intros f Fi. apply in_map_iff in Fi.
      destruct Fi as (d' & <- & _). repeat split.
    - rewrite F' in F2. inversion F2; subst f2. rewrite A, B, C1, C2, B1, B2.
      cbn [new_file_stats fs_wtime fs_rtime fs_wcount fs_rcount fs_wbytes fs_rbytes].
      rewrite !Z.add_0_l. csplit; reflexivity. }
  assert (SN : forall (f : fdata -> Z) (g : nat -> Z),
    (forall i f', nth_error (s_files (sec_run tr (fresh ds))) i = Some f' ->
       f (to_fdata f') = g i) ->
    sumZ f (sd_files (snapshot creation now (sec_run tr (fresh ds)))) =
    sumZ g (seq 0 (length ds))).
  { intros f g H. cbn [sd_files snapshot]. rewrite sumZ_map, <- LEN.
    apply sum_nth. intros i a N. exact (H i a N). }
  destruct (total_all true ops (length ds) O V) as (T1 & T2 & T3).
  destruct (total_all false ops (length ds) O V) as (U1 & U2 & U3).
  unfold sd_read_time, sd_write_time, sd_read_count, sd_write_count,
    sd_read_bytes, sd_write_bytes, u32, u64.
  rewrite !fold_sumZ, !fold_mod by reflexivity. rewrite !Z.add_0_l.
  csplit.
  - rewrite <- U1. apply SN. intros i f' N. apply (K i f' N).
  - rewrite <- T1. apply SN. intros i f' N. apply (K i f' N).
  - rewrite <- U2, <- (sum_mod _ (fun i => total_count false i ops)).
    f_equal. apply SN. intros i f' N. apply (K i f' N).
  - rewrite <- T2, <- (sum_mod _ (fun i => total_count true i ops)).
    f_equal. apply SN. intros i f' N. apply (K i f' N).
  - rewrite <- U3, <- (sum_mod _ (fun i => total_bytes false i ops)).
    f_equal. apply SN. intros i f' N. apply (K i f' N).
  - rewrite <- T3, <- (sum_mod _ (fun i => total_bytes true i ops)).
    f_equal. apply SN. intros i f' N. apply (K i f' N).
Qed.

Example C61_getters_ex :
  sd_write_time (snapshot 0 100 (sec_run ex_tr (fresh [7]))) = 34.
Proof.
  assert (V : forall o, In o ex_ops -> is_wait o = false -> (file_of o < length [7])%nat).
  { intros o Io _. cbn in Io. repeat (destruct Io as [<-|Io]; [cbn; lia|]). destruct Io. }
  destruct (C61_getters ex_ops ex_tr [7] 0 100 ex_interleave ex_ordinary V) as (_ & W & _).
  rewrite W. reflexivity.
Qed.
Print Assumptions C61_getters.

(** The same for waiting times (get_io_wait_time etc.); waits for any request
    are accounted as write waits. *)
Theorem C61_wait_time : forall ops tr s,
  interleave (map program ops) tr -> Forall ordinary ops -> quiet s ->
  let s' := sec_run tr s in
  g_t (s_waits s') = g_t (s_waits s) + sumZ duration (filter is_wait ops) /\
  g_t (s_wread s') = g_t (s_wread s) + sumZ duration (filter is_wait_read ops) /\
  g_t (s_wwrite s') = g_t (s_wwrite s) + sumZ duration (filter is_wait_other ops).
Proof.
  intros ops tr s I O Q.
  destruct (serial_waits ops tr s I O Q) as (A & B & C & _). cbv zeta. csplit; auto.
Qed.

Example C61_wait_time_ex :
  let s' := sec_run [SecWaitUp WaitRead 10; SecWaitUp WaitAny 12;
                     SecWaitDown WaitRead 15; SecWaitDown WaitAny 20] (fresh []) in
  g_t (s_waits s') = 13 /\ g_t (s_wread s') = 5 /\ g_t (s_wwrite s') = 8.
Proof.
  set (ops := [OpWait WaitRead 10 15; OpWait WaitAny 12 20]).
  destruct (C61_wait_time ops
    [SecWaitUp WaitRead 10; SecWaitUp WaitAny 12;
     SecWaitDown WaitRead 15; SecWaitDown WaitAny 20] (fresh [])) as (A & B & C).
  - unfold ops; cbn. il_step 0%nat. il_step 1%nat. il_step 0%nat. il_step 1%nat.
    apply IlNil; repeat constructor.
  - repeat constructor.
  - repeat split; constructor.
  - cbv zeta. rewrite A, B, C. repeat split.
Qed.
Print Assumptions C61_wait_time.

(** False in general: a posted linuxaio request that is cancelled calls
    read_canceled without ever having called read_started
    (linuxaio_request.cpp:43-49; nothing else in linuxaio calls _started), so
    the operation count wraps around to 2^32-1 and the number of active
    reads stays at -1. *)
Theorem C61_cancelled_linuxaio_refuted :
  ~ (forall ops tr ds i f',
       interleave (map program ops) tr ->
       nth_error (s_files (sec_run tr (fresh ds))) i = Some f' ->
       fs_rcount f' = total_count false i ops mod 2 ^ 32 /\ fs_racc f' = 0).
Proof.
  intro H.
  destruct (H [OpAioCancel false 0 4096 50] (read_canceled 0 4096 50) [0] O
              (sec_read_finished 50 (sec_read_canceled 4096 (new_file_stats 0))))
    as (A & B).
  - cbn. do 4 il_step 0%nat. apply IlNil; repeat constructor.
  - reflexivity.
  - vm_compute in A. discriminate.
Qed.
Print Assumptions C61_cancelled_linuxaio_refuted.

(** * C62: parallel time is the time some operation was active *)

Theorem C62_parallel_time : forall ops tr s lo n,
  interleave (map program ops) tr -> Forall ordinary ops -> quiet s ->
  let s' := sec_run tr s in
  (ordered (flat_map read_stamp tr) ->
   within (is_timed false) ops lo (lo + Z.of_nat n) ->
   g_p (s_reads s') = g_p (s_reads s) + busy_time (is_timed false) ops lo n) /\
  (ordered (flat_map write_stamp tr) ->
   within (is_timed true) ops lo (lo + Z.of_nat n) ->
   g_p (s_writes s') = g_p (s_writes s) + busy_time (is_timed true) ops lo n) /\
  (ordered (flat_map io_stamp tr) ->
   within is_timed_any ops lo (lo + Z.of_nat n) ->
   g_p (s_ios s') = g_p (s_ios s) + busy_time is_timed_any ops lo n) /\
  (ordered (flat_map wait_stamp tr) ->
   within is_wait ops lo (lo + Z.of_nat n) ->
   g_p (s_waits s') = g_p (s_waits s) + busy_time is_wait ops lo n /\
   g_p (s_wread s') = g_p (s_wread s) + busy_time is_wait_read ops lo n /\
   g_p (s_wwrite s') = g_p (s_wwrite s) + busy_time is_wait_other ops lo n).
Proof. exact parallel_times. Qed.

Example C62_parallel_time_ex :
  let s' := sec_run ex_tr (fresh [7]) in
  g_p (s_writes s') = 20 /\ g_p (s_reads s') = 35 /\ g_p (s_ios s') = 35.
Proof.
  destruct (C62_parallel_time ex_ops ex_tr (fresh [7]) 0 100 ex_interleave ex_ordinary)
    as (R & W & I & _).
  - split; [repeat constructor|repeat split].
  - cbv zeta. csplit.
    + rewrite W; [reflexivity| |].
      * cbn. csplit; auto; intros u U; repeat (destruct U as [<-|U]; [lia|]); destruct U.
      * intros o Io _. cbn in Io.
        repeat (destruct Io as [<-|Io]; [cbn; lia|]). destruct Io.
    + rewrite R; [reflexivity| |].
      * cbn. csplit; auto; intros u U; repeat (destruct U as [<-|U]; [lia|]); destruct U.
      * intros o Io _. cbn in Io.
        repeat (destruct Io as [<-|Io]; [cbn; lia|]). destruct Io.
    + rewrite I; [reflexivity| |].
      * cbn. csplit; auto; intros u U; repeat (destruct U as [<-|U]; [lia|]); destruct U.
      * intros o Io _. cbn in Io.
        repeat (destruct Io as [<-|Io]; [cbn; lia|]). destruct Io.
Qed.
Print Assumptions C62_parallel_time.

(** A monotone clock alone is not enough: the time stamp is read before the
    mutex is taken, so sections can be entered in another order, and then the
    parallel time is wrong.  Two writes, from 5 to 10 and from 6 to 10, with
    the second one entering first: 4 instead of 5. *)
Theorem C62_unordered_sections_refuted :
  ~ (forall ops tr ds lo n,
       interleave (map program ops) tr -> Forall ordinary ops ->
       within (is_timed true) ops lo (lo + Z.of_nat n) ->
       g_p (s_writes (sec_run tr (fresh ds))) = busy_time (is_timed true) ops lo n).
Proof.
  intro H.
  specialize (H [OpIO true 0 1 5 10 false; OpIO true 0 1 6 10 false]
    ([SecWStart 0 1 5] ++ write_started 0 1 6 ++ [SecPWriteUp 5; SecIoUp 5] ++
     write_finished 0 10 ++ write_finished 0 10) [0] 0 20%nat).
  assert (K : g_p (s_writes (sec_run ([SecWStart 0 1 5] ++ write_started 0 1 6 ++
     [SecPWriteUp 5; SecIoUp 5] ++
     write_finished 0 10 ++ write_finished 0 10) (fresh [0]))) = 4) by reflexivity.
  rewrite H in K.
  - vm_compute in K. discriminate.
  - cbn. il_step 0%nat. do 3 il_step 1%nat. do 2 il_step 0%nat.
    do 3 il_step 0%nat. do 3 il_step 1%nat. apply IlNil; repeat constructor.
  - repeat constructor.
  - intros o Io _. cbn in Io.
    repeat (destruct Io as [<-|Io]; [cbn; lia|]). destruct Io.
Qed.
Print Assumptions C62_unordered_sections_refuted.

(** linuxaio requests report through read_op_finished / write_op_finished
    (iostats.cpp:88-95, 141-148), which do not touch the parallel counters:
    the parallel times of linuxaio files stay as they were. *)
Theorem C62_linuxaio_not_counted : forall ops tr s,
  interleave (map program ops) tr ->
  (forall o, In o ops -> exists w i sz d, o = OpAio w i sz d) ->
  let s' := sec_run tr s in
  s_reads s' = s_reads s /\ s_writes s' = s_writes s /\ s_ios s' = s_ios s.
Proof.
  intros ops tr s I A. cbv zeta.
  assert (T : forall c, In c tr -> exists i sz d, c = SecWOp i sz d \/ c = SecROp i sz d).
  { intros c C. apply (Permutation_in _ (interleave_perm _ _ _ I)) in C.
    apply in_concat in C. destruct C as (p & P & C).
    apply in_map_iff in P. destruct P as (o & <- & Io).
    destruct (A o Io) as (w & i & sz & d & ->).
    destruct w; cbn in C; destruct C as [<-|[]]; eauto. }
  clear I A. revert s T. induction tr; intros s T; [auto|].
  cbn [sec_run].
  destruct (IHtr (sec_step a s)) as (B1 & B2 & B3).
  { intros c C; apply T; right; auto. }
  rewrite B1, B2, B3.
  destruct (T a (or_introl eq_refl)) as (i & sz & d & [->| ->]); auto.
Qed.

Example C62_linuxaio_not_counted_ex :
  let s' := sec_run [SecROp 0 4096 17; SecWOp 0 4096 20] (fresh [3]) in
  g_p (s_ios s') = 0 /\ sd_read_time (snapshot 0 0 s') = 17.
Proof.
  destruct (C62_linuxaio_not_counted
    [OpAio false 0 4096 17; OpAio true 0 4096 20]
    [SecROp 0 4096 17; SecWOp 0 4096 20] (fresh [3])) as (_ & _ & E).
  - cbn. il_step 0%nat. il_step 1%nat. apply IlNil; repeat constructor.
  - intros o [<-|[<-|[]]]; eauto.
  - cbv zeta. rewrite E. split; reflexivity.
Qed.
Print Assumptions C62_linuxaio_not_counted.

(** * C63: statistics are attributed to the right device *)

Theorem C63_increasing_ids : forall ds l os,
  increasing ds -> (forall d, In d ds -> 0 <= d) ->
  create_all ds empty_list = (l, os) ->
  ids l = ds /\ length os = length ds /\ NoDup os /\
  forall o d, In (o, d) (combine os ds) -> device_of l o d.
Proof.
  intros ds l os IN P H.
  destruct (create_all_spec ds empty_list l os) as (_&A&B&C&_&D&_); auto.
  - unfold wf_list; cbn. csplit; auto; try constructor; intros; contradiction.
  - intros d e _ [].
Qed.

Example C63_increasing_ids_ex :
  let (l, os) := create_all [0; 3; 4] empty_list in
  ids l = [0; 3; 4] /\ os = [0; 1; 2]%nat.
Proof.
  destruct (create_all [0; 3; 4] empty_list) as (l, os) eqn:E.
  destruct (C63_increasing_ids [0; 3; 4] l os) as (A & _); auto.
  - cbn. csplit; auto; intros; intuition lia.
  - cbn; intros; intuition lia.
  - vm_compute in E. inversion E; subst. split; reflexivity.
Qed.
Print Assumptions C63_increasing_ids.

(** Exact characterisation of one call, for every list the calls can build
    (the list stays well formed). *)
Theorem C63_right_device_iff : forall d l l' o,
  wf_list l -> 0 <= d -> create_file_stats d l = (l', o) ->
  wf_list l' /\
  (device_of l' o d <->
   (forall e, In e (ids l) -> e < d) \/
   (In d (ids l) /\ d <> 0) \/
   (d = 0 /\ forall e, In e (ids l) -> e = 0)) /\
  (In d (ids l) -> d <> 0 -> l' = l).
Proof.
  intros d l l' o W D H. csplit.
  - eapply create_wf; eauto.
  - eapply create_exact; eauto.
  - intros I N. eapply create_reuse; eauto.
Qed.

Example C63_right_device_iff_ex :
  let l := MkL [(0%nat, 2); (1%nat, 5)] 2 in
  ~ device_of (fst (create_file_stats 3 l)) (snd (create_file_stats 3 l)) 3 /\
  device_of (fst (create_file_stats 5 l)) (snd (create_file_stats 5 l)) 5.
Proof.
  cbv zeta.
  assert (W : wf_list (MkL [(0%nat, 2); (1%nat, 5)] 2)).
  { unfold wf_list, ids; cbn. csplit; auto.
    - intros; intuition lia.
    - intros u [].
    - intros; intuition lia.
    - repeat constructor; cbn; intuition lia.
    - intros; intuition lia. }
  split.
  - destruct (create_file_stats 3 (MkL [(0%nat, 2); (1%nat, 5)] 2)) as (l', o) eqn:E.
    cbn [fst snd].
    destruct (C63_right_device_iff 3 _ l' o W ltac:(lia) E) as (_ & K & _).
    rewrite K. cbn. intros [A|[(A & _)|(A & _)]]; try lia.
    + specialize (A 5 ltac:(auto)). lia.
  - destruct (create_file_stats 5 (MkL [(0%nat, 2); (1%nat, 5)] 2)) as (l', o) eqn:E.
    cbn [fst snd].
    destruct (C63_right_device_iff 5 _ l' o W ltac:(lia) E) as (_ & K & _).
    rewrite K. right; left. split; [|lia]. cbn; auto.
Qed.
Print Assumptions C63_right_device_iff.

(** In any order the claim is false: device 1 then device 0 gives the second
    file the statistics object of device 1; 0, 1, 0 creates a duplicate entry
    for device 0 and still returns device 1's object. *)
Theorem C63_any_order_refuted :
  ~ (forall ds l os, (forall d, In d ds -> 0 <= d) ->
       create_all ds empty_list = (l, os) ->
       forall o d, In (o, d) (combine os ds) -> device_of l o d) /\
  ~ (forall ds l os, (forall d, In d ds -> 0 <= d) ->
       create_all ds empty_list = (l, os) -> NoDup (ids l)).
Proof.
  split; intro H.
  - specialize (H [1; 0] (MkL [(0%nat, 1)] 1) [0; 0]%nat).
    assert (K := H ltac:(cbn; intros; intuition lia) eq_refl 0%nat 0
                   ltac:(cbn; auto)).
    cbn in K. destruct K as [K|[]]. inversion K.
  - specialize (H [0; 1; 0] (MkL [(2%nat, 0); (0%nat, 0); (1%nat, 1)] 3) [0; 1; 1]%nat
                  ltac:(cbn; intros; intuition lia) eq_refl).
    inversion H as [|? ? A _]; subst. apply A. left; auto.
Qed.
Print Assumptions C63_any_order_refuted.

(** * C64: snapshots subtract correctly *)

Theorem C64_difference : forall later earlier,
  increasing (devs (sd_files later)) -> increasing (devs (sd_files earlier)) ->
  incl (devs (sd_files earlier)) (devs (sd_files later)) ->
  exists r, sd_sub later earlier = Some r /\
    sd_preads r = sd_preads later - sd_preads earlier /\
    sd_pwrites r = sd_pwrites later - sd_pwrites earlier /\
    sd_pios r = sd_pios later - sd_pios earlier /\
    sd_wait r = sd_wait later - sd_wait earlier /\
    sd_wread r = sd_wread later - sd_wread earlier /\
    sd_wwrite r = sd_wwrite later - sd_wwrite earlier /\
    sd_elapsed r = sd_elapsed later - sd_elapsed earlier /\
    devs (sd_files r) = devs (sd_files later) /\
    forall d, entry r d =
      match entry later d, entry earlier d with
      | Some x, Some y => fd_sub x y
      | Some x, None => Some x
      | None, _ => None
      end.
Proof.
  intros later earlier I1 I2 IC. unfold sd_sub.
  destruct (merge_sub _ _ I1 I2 IC) as (r & R1 & R2 & _ & R4). rewrite R1.
  eexists; split; [reflexivity|]. cbn. csplit; auto.
Qed.

Definition ex_later : sdata :=
  MkSD 9 8 12 5 3 2 100
    [MkFD 0 7 4 700 400 70 40; MkFD 2 9 0 900 0 90 0; MkFD 5 1 1 10 10 1 1].
Definition ex_earlier : sdata :=
  MkSD 4 4 6 1 1 0 60 [MkFD 0 5 4 500 400 50 40; MkFD 5 0 1 0 10 0 1].

Lemma ex_snap_ok :
  increasing (devs (sd_files ex_later)) /\ increasing (devs (sd_files ex_earlier)) /\
  incl (devs (sd_files ex_earlier)) (devs (sd_files ex_later)).
Proof.
  cbn. csplit; auto; try (intros; intuition lia).
  intros x [<-|[<-|[]]]; cbn; auto.
Qed.

Example C64_difference_ex :
  exists r, sd_sub ex_later ex_earlier = Some r /\
    entry r 0 = Some (MkFD 0 2 0 200 0 20 0) /\
    entry r 2 = Some (MkFD 2 9 0 900 0 90 0) /\ sd_pios r = 6.
Proof.
  destruct ex_snap_ok as (A & B & C).
  destruct (C64_difference _ _ A B C) as (r & R & _ & _ & P & _ & _ & _ & _ & _ & E).
  exists r. rewrite !E, P. csplit; auto.
Qed.
Print Assumptions C64_difference.

(** Adding the earlier snapshot back yields the later one (counters within
    their machine ranges). *)
Theorem C64_add_back : forall later earlier r,
  increasing (devs (sd_files later)) -> increasing (devs (sd_files earlier)) ->
  incl (devs (sd_files earlier)) (devs (sd_files later)) ->
  Forall fd_ranged (sd_files later) ->
  sd_sub later earlier = Some r -> sd_add r earlier = Some later.
Proof.
  intros later earlier r I1 I2 IC F H. unfold sd_sub in H.
  destruct (merge_sub _ _ I1 I2 IC) as (l & R1 & R2 & R3 & _). rewrite R1 in H.
  inversion H; subst r; clear H. unfold sd_add; cbn [sd_files sd_preads sd_pwrites
    sd_pios sd_wait sd_wread sd_wwrite sd_elapsed].
  rewrite (R3 F), !Z.sub_add. destruct later; reflexivity.
Qed.

Example C64_add_back_ex :
  exists r, sd_sub ex_later ex_earlier = Some r /\ sd_add r ex_earlier = Some ex_later.
Proof.
  destruct ex_snap_ok as (A & B & C).
  destruct (C64_difference _ _ A B C) as (r & R & _).
  exists r; split; [exact R|]. apply (C64_add_back ex_later ex_earlier r); auto.
  repeat constructor.
Qed.
Print Assumptions C64_add_back.

(** Two snapshots of the same counters: the difference is exactly the
    operations in between. *)
Theorem C64_operations_between : forall ops tr s c t1 t2 r,
  interleave (map program ops) tr -> Forall ordinary ops -> quiet s ->
  Forall ranged (s_files s) ->
  increasing (map fs_dev (s_files s)) ->
  sd_sub (snapshot c t2 (sec_run tr s)) (snapshot c t1 s) = Some r ->
  sd_elapsed r = t2 - t1 /\
  sd_wait r = sumZ duration (filter is_wait ops) /\
  sd_wread r = sumZ duration (filter is_wait_read ops) /\
  sd_wwrite r = sumZ duration (filter is_wait_other ops) /\
  (forall lo n, ordered (flat_map read_stamp tr) ->
     within (is_timed false) ops lo (lo + Z.of_nat n) ->
     sd_preads r = busy_time (is_timed false) ops lo n) /\
  (forall lo n, ordered (flat_map write_stamp tr) ->
     within (is_timed true) ops lo (lo + Z.of_nat n) ->
     sd_pwrites r = busy_time (is_timed true) ops lo n) /\
  (forall lo n, ordered (flat_map io_stamp tr) ->
     within is_timed_any ops lo (lo + Z.of_nat n) ->
     sd_pios r = busy_time is_timed_any ops lo n) /\
  forall i f, nth_error (s_files s) i = Some f ->
    entry r (fs_dev f) = Some (MkFD (fs_dev f)
      (u32 (total_count false i ops)) (u32 (total_count true i ops))
      (u64 (total_bytes false i ops)) (u64 (total_bytes true i ops))
      (total_time false i ops) (total_time true i ops)).
Proof.
  intros ops tr s c t1 t2 r I O Q R IN H.
  destruct (C64_difference (snapshot c t2 (sec_run tr s)) (snapshot c t1 s))
    as (r' & R' & PR & PW & PI & W & WR & WW & EL & _ & E).
  { rewrite snapshot_devs, run_devs; auto. }
  { rewrite snapshot_devs; auto. }
  { rewrite !snapshot_devs, run_devs. apply incl_refl. }
  rewrite H in R'; inversion R'; subst r'; clear R'.
  csplit.
  - rewrite EL; cbn; lia.
  - rewrite W. cbn [snapshot sd_wait].
    destruct (serial_waits ops tr s I O Q) as (A & _). rewrite A. lia.
  - rewrite WR. cbn [snapshot sd_wread].
    destruct (serial_waits ops tr s I O Q) as (_ & A & _). rewrite A. lia.
  - rewrite WW. cbn [snapshot sd_wwrite].
    destruct (serial_waits ops tr s I O Q) as (_ & _ & A & _). rewrite A. lia.
  - intros lo n A B. rewrite PR. cbn [snapshot sd_preads].
    destruct (parallel_times ops tr s lo n I O Q) as (P & _). rewrite P; auto; lia.
  - intros lo n A B. rewrite PW. cbn [snapshot sd_pwrites].
    destruct (parallel_times ops tr s lo n I O Q) as (_ & P & _). rewrite P; auto; lia.
  - intros lo n A B. rewrite PI. cbn [snapshot sd_pios].
    destruct (parallel_times ops tr s lo n I O Q) as (_ & _ & P & _). rewrite P; auto; lia.
  - intros i f F. rewrite E.
    assert (Qf : quiet_file f).
    { destruct Q as (Q & _). rewrite Forall_forall in Q. apply Q.
      eapply nth_error_In; eauto. }
    destruct (C61_serial_time ops tr s i f I O F Qf R)
      as (f' & F' & D & _ & WT & RT & WC & RC & WB & RB).
    assert (FI : forall l k g, increasing (map fs_dev l) -> nth_error l k = Some g ->
      find (fun x => fd_dev x =? fs_dev g) (map to_fdata l) = Some (to_fdata g)).
    { clear. induction l; intros k g J N; destruct k; cbn in *; try discriminate.
      - inversion N; subst. rewrite Z.eqb_refl; auto.
      - destruct J as (J1 & J2).
        destruct (Z.eqb_spec (fs_dev a) (fs_dev g)) as [Q|Q]; [|eapply IHl; eauto].
        exfalso. specialize (J1 (fs_dev g)).
        assert (In (fs_dev g) (map fs_dev l)) by (apply in_map; eapply nth_error_In; eauto).
        apply J1 in H. lia. }
    unfold entry. cbn [snapshot sd_files].
    rewrite (FI (s_files s) i f IN F).
    rewrite <- D. rewrite (FI (s_files (sec_run tr s)) i f')
      by (auto; rewrite run_devs; auto).
    unfold fd_sub, to_fdata; cbn [fd_dev]. rewrite D, Z.eqb_refl. cbn [negb].
    cbn [fd_rcount fd_wcount fd_rbytes fd_wbytes fd_rtime fd_wtime].
    rewrite WT, RT, WC, RC, WB, RB. unfold u32, u64.
    rewrite !Zminus_mod_idemp_l.
    repeat f_equal; lia.
Qed.

Example C64_operations_between_ex :
  exists r, sd_sub (snapshot 0 50 (sec_run ex_tr (fresh [7]))) (snapshot 0 1 (fresh [7]))
            = Some r /\
    entry r 7 = Some (MkFD 7 1 2 8192 4608 35 34).
Proof.
  destruct (sd_sub (snapshot 0 50 (sec_run ex_tr (fresh [7]))) (snapshot 0 1 (fresh [7])))
    as [r|] eqn:E; [|vm_compute in E; discriminate].
  exists r; split; auto.
  destruct (C64_operations_between ex_ops ex_tr (fresh [7]) 0 1 50 r
              ex_interleave ex_ordinary)
    as (_ & _ & _ & _ & _ & _ & _ & K); auto.
  - split; [repeat constructor|repeat split].
  - repeat constructor.
  - cbn. split; [intros e []|auto].
  - exact (K O (new_file_stats 7) eq_refl).
Qed.
Print Assumptions C64_operations_between.

(** A device that only the earlier snapshot knows is copied unchanged instead
    of negated, so operations are reported that did not happen in between. *)
Theorem C64_missing_device_refuted :
  ~ (forall later earlier r d y,
       increasing (devs (sd_files later)) -> increasing (devs (sd_files earlier)) ->
       sd_sub later earlier = Some r ->
       entry later d = None -> entry earlier d = Some y ->
       entry r d = None \/
       exists z, entry r d = Some z /\ fd_rtime z = - fd_rtime y).
Proof.
  intro H.
  specialize (H (MkSD 0 0 0 0 0 0 0 []) (MkSD 0 0 0 0 0 0 0 [MkFD 1 3 0 30 0 5 0])
    (MkSD 0 0 0 0 0 0 0 [MkFD 1 3 0 30 0 5 0]) 1 (MkFD 1 3 0 30 0 5 0)).
  cbn in H. destruct H as [H|(z & H & K)]; auto.
  - split; auto. intros e [].
  - discriminate.
  - inversion H; subst. cbn in K. discriminate.
Qed.
Print Assumptions C64_missing_device_refuted.
