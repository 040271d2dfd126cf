(** C118: what snapshots of the statistics say while operations are running,
    and what scoped_print_iostats reports. *)

From Coq Require Import ZArith String List Bool Lia Permutation.
From Verif Require Import StatsModel StatsSpec StatsProofs StatsProofs2 SnapModel SnapSpec SnapProofs WriterProofs.
Import ListNotations.
Local Open Scope Z_scope.

Definition timed_or_wait (o : op) : bool := is_timed_any o || is_wait o.

Lemma begin_sub (k k' : op -> bool) ops lo : (forall o, k' o = true -> k o = true) ->
  begin_after k ops lo -> begin_after k' ops lo.
Proof. intros H B o I K. apply (B o I (H o K)). Qed.

Ltac evs :=
  let o := fresh in intros o; destruct o as [[] ? ? ? ? []|[] ? ? ?|[] ? ? ?|[] ? ?]; cbn; intros []; reflexivity.

(** Counters seen at any moment: the operations begun until then less those
    given up until then, whatever the threads do. *)
Theorem C118_counts : forall cr tr s j i x v f,
  nth_error (reads cr tr s) j = Some (MFile i x, v) ->
  nth_error (s_files s) i = Some f -> ranged f ->
  let pre := before j tr in
  match x with
  | FDev => v = fs_dev f
  | FRCount => v = (fs_rcount f + sumZ (counted false i) pre) mod 2 ^ 32
  | FWCount => v = (fs_wcount f + sumZ (counted true i) pre) mod 2 ^ 32
  | FRBytes => v = (fs_rbytes f + sumZ (counted_bytes false i) pre) mod 2 ^ 64
  | FWBytes => v = (fs_wbytes f + sumZ (counted_bytes true i) pre) mod 2 ^ 64
  | _ => True
  end.
Proof.
  intros cr tr s j i x v f H F R pre. destruct (reads_nth _ _ _ _ _ _ H) as (V & _). fold pre in V.
  destruct (run_file pre s i f F) as (f' & F' & E).
  assert (R' : ranged f').
  { assert (G : forall l s f f', nth_error (s_files s) i = Some f -> ranged f ->
                nth_error (s_files (sec_run l s)) i = Some f' -> ranged f').
    { induction l as [|c l IH]; intros s0 g g' A B C; [cbn in C; congruence|].
      cbn [sec_run] in C. destruct (sec_file c s0 i g A) as (h & A' & _).
      apply (IH _ h g' A'); auto.
      destruct c; cbn [sec_step on_file on_reads on_writes on_ios on_waits s_files] in A';
        try (rewrite A in A'; injection A' as <-; exact B);
        rewrite (nth_upd _ _ _ _ _ A) in A'; injection A' as <-;
        destruct (Nat.eqb file i); auto; destruct B as (?&?&?&?); unfold ranged; cbn;
        rewrite ?u32_u32, ?u64_u64; auto. }
    apply (G pre s f f'); auto. }
  destruct E as (E0 & _ & _ & E1 & E2 & _ & _ & E3 & E4). destruct R' as (R1 & R2 & R3 & R4).
  destruct (file_sums i pre) as (_ & _ & _ & _ & S5 & S6 & S7 & S8).
  cbn [get] in V. rewrite F' in V. unfold u32, u64 in *.
  destruct x; cbn [get_field] in V; auto; congruence.
Qed.
Print Assumptions C118_counts.

(** Times seen at any moment: exactly what a clock would have counted until the
    last start or end of an operation of the kind before that moment.  The time
    since then is missing. *)
Theorem C118_times : forall cr ops tr s lo j m v,
  interleave (map program ops) (sections tr) -> Forall ordinary ops -> quiet s ->
  in_order (sections tr) -> begin_after timed_or_wait ops lo ->
  nth_error (reads cr tr s) j = Some (m, v) ->
  let pre := before j tr in
  match m with
  | MPReads => v = g_p (s_reads s) + busy_between (is_timed false) ops lo (latest read_stamp lo pre)
  | MPWrites => v = g_p (s_writes s) + busy_between (is_timed true) ops lo (latest write_stamp lo pre)
  | MPIos => v = g_p (s_ios s) + busy_between is_timed_any ops lo (latest io_stamp lo pre)
  | MWait => v = g_t (s_waits s) + time_until is_wait ops (latest wait_stamp lo pre)
  | MWaitRead => v = g_t (s_wread s) + time_until is_wait_read ops (latest wait_read_stamp lo pre)
  | MWaitWrite => v = g_t (s_wwrite s) + time_until is_wait_other ops (latest wait_other_stamp lo pre)
  | MClock now => v = now - cr
  | MFile i FRTime => forall f, nth_error (s_files s) i = Some f ->
      v = fs_rtime f + time_until (timed_on false i) ops (latest (file_stamp false i) lo pre)
          + sumZ (kernel_time false i) pre
  | MFile i FWTime => forall f, nth_error (s_files s) i = Some f ->
      v = fs_wtime f + time_until (timed_on true i) ops (latest (file_stamp true i) lo pre)
          + sumZ (kernel_time true i) pre
  | MFile _ _ => True
  end.
Proof.
  intros cr ops tr s lo j m v I O Q (O1 & O2 & O3 & O4 & O5) BA H pre.
  destruct (reads_nth _ _ _ _ _ _ H) as (V & rest & E). fold pre in V, E. rewrite E in *.
  destruct (run_groups pre s) as (A & B & C & D & F & G). cbv zeta in *.
  destruct (run_waits pre s) as (W1 & W2 & W3). cbv zeta in *.
  destruct Q as (Qf & Q1 & Q2 & Q3 & Q4 & Q5 & Q6).
  assert (OW : forall st, (forall c, st c = wait_stamp c \/ st c = []) -> ordered (flat_map st (pre ++ rest))).
  { intros st S1. eapply ordered_sub; [exact S1| |exact O4]. intros []; cbn; lia. }
  destruct m as [ | | | | | |now|i x]; cbn [get] in V; subst v; auto.
  - eapply (parallel_seen ev_read); eauto; [evs|intros []; reflexivity|].
    eapply begin_sub; [|exact BA]. intros [[]| | |]; cbn; auto.
  - eapply (parallel_seen ev_write); eauto; [evs|intros []; reflexivity|].
    eapply begin_sub; [|exact BA]. intros [[]| | |]; cbn; auto.
  - eapply (parallel_seen ev_io); eauto; [evs|intros []; reflexivity|].
    eapply begin_sub; [|exact BA]. intros [[]| | |]; cbn; auto.
  - eapply (wait_seen k_all); eauto; [evs|intros []; reflexivity|].
    eapply begin_sub; [|exact BA]. intros [[]| | |]; cbn; auto.
  - eapply (wait_seen k_read); eauto; [evs|intros [| | | | | | | | | | | | | |[]|[]]; reflexivity| |].
    + apply OW. intros [| | | | | | | | | | | | | |[]|[]]; cbn; auto.
    + eapply begin_sub; [|exact BA]. intros [[]| | |[]]; cbn; auto.
  - eapply (wait_seen k_other); eauto; [evs|intros [| | | | | | | | | | | | | |[]|[]]; reflexivity| |].
    + apply OW. intros [| | | | | | | | | | | | | |[]|[]]; cbn; auto.
    + eapply begin_sub; [|exact BA]. intros [[]| | |[]]; cbn; auto.
  - assert (X : forall f, nth_error (s_files s) i = Some f -> exists f',
      nth_error (s_files (sec_run pre s)) i = Some f' /\
      fs_wtime f' = fs_wtime f + time_until (timed_on true i) ops (latest (file_stamp true i) lo pre)
                    + sumZ (kernel_time true i) pre /\
      fs_rtime f' = fs_rtime f + time_until (timed_on false i) ops (latest (file_stamp false i) lo pre)
                    + sumZ (kernel_time false i) pre).
    { intros f Hf. destruct (run_file pre s i f Hf) as (f' & Hf' & _). exists f'. split; [exact Hf'|].
      eapply file_seen; eauto.
      - intros w. eapply begin_sub; [|exact BA]. intros [[]| | |[]]; destruct w; cbn; auto; discriminate.
      - rewrite Forall_forall in Qf. apply Qf. apply nth_error_In with i; auto. }
    destruct x; auto; intros f Hf; destruct (X f Hf) as (f' & Hf' & X1 & X2); rewrite Hf'; assumption.
Qed.
Print Assumptions C118_times.

(** Hence the difference of two snapshots in one run.  Parallel times: the time
    during which an operation was active between the last event before the
    first reading and the last event before the second reading.  Counters: what
    was begun less what was given up between the readings. *)
Theorem C118_between : forall cr ops tr s lo j1 j2 m v1 v2,
  interleave (map program ops) (sections tr) -> Forall ordinary ops -> quiet s ->
  in_order (sections tr) -> begin_after timed_or_wait ops lo ->
  Forall ranged (s_files s) ->
  (j1 <= j2)%nat ->
  nth_error (reads cr tr s) j1 = Some (m, v1) -> nth_error (reads cr tr s) j2 = Some (m, v2) ->
  exists mid, before j2 tr = before j1 tr ++ mid /\
  let t1 st := latest st lo (before j1 tr) in
  let t2 st := latest st lo (before j2 tr) in
  let parallel k st := v2 - v1 = busy_between k ops (t1 st) (t2 st) /\ 0 <= v2 - v1 <= t2 st - t1 st in
  match m with
  | MPReads => parallel (is_timed false) read_stamp
  | MPWrites => parallel (is_timed true) write_stamp
  | MPIos => parallel is_timed_any io_stamp
  | MFile i x => forall f, nth_error (s_files s) i = Some f ->
      match x with
      | FRCount => (v2 - v1) mod 2 ^ 32 = sumZ (counted false i) mid mod 2 ^ 32
      | FWCount => (v2 - v1) mod 2 ^ 32 = sumZ (counted true i) mid mod 2 ^ 32
      | FRBytes => (v2 - v1) mod 2 ^ 64 = sumZ (counted_bytes false i) mid mod 2 ^ 64
      | FWBytes => (v2 - v1) mod 2 ^ 64 = sumZ (counted_bytes true i) mid mod 2 ^ 64
      | _ => True
      end
  | _ => True
  end.
Proof.
  intros cr ops tr s lo j1 j2 m v1 v2 I O Q IO BA R J H1 H2.
  destruct (before_mono tr j1 j2 J) as (mid & M). exists mid. split; [exact M|]. cbv zeta.
  assert (T1 := C118_times cr ops tr s lo j1 m v1 I O Q IO BA H1).
  assert (T2 := C118_times cr ops tr s lo j2 m v2 I O Q IO BA H2). cbv zeta in T1, T2.
  destruct (reads_nth _ _ _ _ _ _ H2) as (_ & rest & E).
  assert (X : forall (k : op -> bool) st, ordered (flat_map st (sections tr)) ->
    (forall t, In t (flat_map st (sections tr)) -> lo <= t) ->
    lo <= latest st lo (before j1 tr) <= latest st lo (before j2 tr)).
  { intros k st OS L. rewrite E, M, <- app_assoc, !flat_map_app, app_assoc in OS.
    apply ordered_app in OS. destruct OS as (OS & _).
    assert (L' : forall t, In t (flat_map st (before j1 tr) ++ flat_map st mid) -> lo <= t).
    { intros t T. apply L. rewrite E, M, <- app_assoc, !flat_map_app, app_assoc. apply in_or_app; auto. }
    unfold latest. rewrite M, flat_map_app, last_app.
    apply ordered_app in OS. destruct OS as (OA & OB & OC).
    destruct (last_le _ lo OA) as (A1 & A2); [intros t T; apply L'; apply in_or_app; auto|].
    split; [exact A1|].
    destruct (flat_map st mid) as [|u l] eqn:F; [cbn; lia|].
    refine (proj1 (last_le (u :: l) _ OB _)).
    intros t T. destruct (flat_map st (before j1 tr)) as [|a l'] eqn:G.
    - cbn. apply L'. exact T.
    - apply OC; [apply last_in; discriminate|exact T]. }
  assert (Y : forall (ev : section -> list (bool * Z)) (k : op -> bool) st g0,
    (forall o, ordinary o -> flat_map ev (program o) = if k o then op_events o else []) ->
    (forall c, map snd (ev c) = st c) -> ordered (flat_map st (sections tr)) ->
    (forall o, k o = true -> timed_or_wait o = true) ->
    v1 = g0 + busy_between k ops lo (latest st lo (before j1 tr)) ->
    v2 = g0 + busy_between k ops lo (latest st lo (before j2 tr)) ->
    v2 - v1 = busy_between k ops (latest st lo (before j1 tr)) (latest st lo (before j2 tr)) /\
    0 <= v2 - v1 <= latest st lo (before j2 tr) - latest st lo (before j1 tr)).
  { intros ev k st g0 P1 P2 P3 P4 V1 V2.
    assert (L : lo <= latest st lo (before j1 tr) <= latest st lo (before j2 tr)).
    { apply X; auto. intros t T. rewrite <- (stamps_map ev st) in T by auto.
      apply in_map_iff in T. destruct T as (e & <- & Ie).
      assert (P : Permutation (flat_map ev (sections tr)) (flat_map op_events (filter k ops))) by (apply events_perm; auto).
      apply (Permutation_in _ P) in Ie. apply in_flat_map in Ie. destruct Ie as (o & Fo & Eo).
      apply filter_In in Fo. destruct (BA o (proj1 Fo) (P4 o (proj2 Fo))) as (?&?).
      destruct Eo as [<-|[<-|[]]]; cbn; lia. }
    destruct (busy_split k ops lo _ _ L) as (S1 & S2). lia. }
  destruct IO as (O1 & O2 & O3 & _).
  destruct m as [ | | | | | |now|i x]; auto.
  - eapply (Y ev_read); eauto; [evs|intros []; reflexivity|intros [[]| | |]; cbn; auto].
  - eapply (Y ev_write); eauto; [evs|intros []; reflexivity|intros [[]| | |]; cbn; auto].
  - eapply (Y ev_io); eauto; [evs|intros []; reflexivity|intros [[]| | |]; cbn; auto].
  - intros f Hf.
    assert (Rf : ranged f) by (rewrite Forall_forall in R; apply R; apply nth_error_In with i; auto).
    assert (K1 := C118_counts cr tr s j1 i x v1 f H1 Hf Rf).
    assert (K2 := C118_counts cr tr s j2 i x v2 f H2 Hf Rf). cbv zeta in K1, K2. rewrite M in K2.
    rewrite !sumZ_app in K2.
    assert (Z1 : forall n a b c, 0 < n -> ((a + (b + c)) mod n - (a + b) mod n) mod n = c mod n).
    { intros n a b c N. rewrite <- Zminus_mod. f_equal. lia. }
    destruct x; auto; subst v1 v2; apply Z1; lia.
Qed.
Print Assumptions C118_between.

(** A snapshot taken without another thread's section in between is the
    snapshot of C61 to C64. *)
Theorem C118_undisturbed : forall cr now s a,
  let s' := sec_run a s in
  data_from (map snd (reads cr (map ESec a ++ map EGet (snapshot_program now (length (s_files s)))) s)) =
  Some (snapshot cr now s').
Proof.
  intros cr now s a s'. rewrite reads_app, sections_secs. fold s'.
  assert (N : forall l s, reads cr (map ESec l) s = []).
  { induction l as [|c l IH]; intros s0; auto. apply IH. }
  rewrite N. cbn [app]. rewrite reads_gets, map_map. cbn [snd].
  unfold snapshot_program. cbn [app map data_from get]. unfold snapshot. repeat f_equal.
  fold (fl 0 (length (s_files s))).
  rewrite <- (run_files_length a s). fold s'. apply files_from_all. reflexivity.
Qed.
Print Assumptions C118_undisturbed.

(** What the getters of a snapshot return is what was read for them. *)
Theorem C118_data : forall now n vals x j m v,
  length vals = length (snapshot_program now n) -> data_from vals = Some x ->
  nth_error (snapshot_program now n) j = Some m -> nth_error vals j = Some v ->
  sd_get m x = Some v.
Proof.
  intros now n vals x j m v L D J V. unfold snapshot_program in *. fold (fl 0 n) in *.
  destruct vals as [|v1 [|v2 [|v3 [|v4 [|v5 [|v6 [|v7 vals]]]]]]]; try discriminate.
  cbn [data_from] in D. injection D as <-. cbn [length app] in L.
  do 7 (destruct j as [|j]; [cbn in J, V; injection J as <-; injection V as <-; reflexivity|]).
  cbn [app nth_error] in J, V.
  destruct m as [ | | | | | |nw|i f];
    try (exfalso; clear - J; apply nth_error_In in J; unfold fl in J; apply in_flat_map in J;
         destruct J as (q & _ & J); apply in_map_iff in J; destruct J as (? & ? & _); discriminate).
  assert (I : (i < n)%nat).
  { clear - J. apply nth_error_In in J. unfold fl in J. apply in_flat_map in J.
    destruct J as (q & Q & J). apply in_seq in Q. apply in_map_iff in J. destruct J as (y & E & _).
    injection E as E _. lia. }
  cbn [sd_get sd_files].
  assert (L' : length vals = length (fl 0 n)) by lia.
  destruct (nth_error (files_from vals) i) as [d|] eqn:E.
  - f_equal. symmetry. apply (files_from_nth n 0 vals i f d L' E j v J V).
  - apply nth_error_None in E. rewrite (files_from_length n 0 vals L') in E. lia.
Qed.
Print Assumptions C118_data.

(** ** Reports *)

Definition at_time (c : call) : sdata :=
  match c with CReport d | CFinal d | CDestroy d => d end.
Definition is_final (c : call) : bool := match c with CFinal _ => true | _ => false end.
Definition is_destroy (c : call) : bool := match c with CDestroy _ => true | _ => false end.

(** Every call of report and final_report reports the difference to the moment
    of construction, whatever was called before; the destructor does so iff
    final_report was never called. *)
Theorem C118_reports : forall unit message key bytes d0 cs x k c o,
  fst (scoped_new message key bytes d0) = x ->
  nth_error cs k = Some c -> nth_error (scoped_run unit cs x) k = Some o ->
  o = if is_destroy c && existsb is_final (firstn k cs) then Out []
      else report unit (MkSc message key d0 bytes true) (at_time c).
Proof.
  intros unit message key bytes d0 cs x k c o X K N. cbn in X. subst x.
  assert (G : forall cs k f, nth_error cs k = Some c ->
    nth_error (scoped_run unit cs (MkSc message key d0 bytes f)) k = Some o ->
    o = if is_destroy c && (negb f || existsb is_final (firstn k cs)) then Out []
        else report unit (MkSc message key d0 bytes true) (at_time c)).
  { clear cs k K N. induction cs as [|c0 cs IH]; intros k f K N; [destruct k; discriminate|].
    destruct k as [|k].
    - injection K as ->. cbn in N. rewrite orb_false_r.
      destruct c as [d|d|d]; cbn in *; injection N as <-; destruct f; reflexivity.
    - cbn [nth_error] in K. cbn [firstn existsb].
      destruct c0 as [d|d|d]; cbn [scoped_run scoped_call nth_error sc_message sc_key sc_begin sc_bytes] in N;
        rewrite (IH k _ K N); cbn [is_final orb negb];
        destruct (is_destroy c), f; cbn; reflexivity. }
  rewrite (G cs k true K N). reflexivity.
Qed.
Print Assumptions C118_reports.

(** When a report is defined, and what it then says. *)
Theorem C118_report : forall unit x now d, 0 < unit -> 0 <= sc_bytes x ->
  sd_sub now (sc_begin x) = Some d -> 0 <= sd_elapsed d ->
  let defined := sc_bytes x = 0 \/ (0 < sd_elapsed d /\ sc_bytes x * unit < 2 ^ 64 * sd_elapsed d) in
  (report unit x now = OUndefined <-> ~ defined) /\
  (defined -> exists rate, report unit x now = Out ([Finished (sc_message x)] ++ rate ++ [Stats d (sc_key x)]) /\
     (rate = [] <-> sc_bytes x = 0) /\
     forall b r, In (Rate b r) rate -> b = sc_bytes x /\
       r * sd_elapsed d <= sc_bytes x * unit < (r + 1) * sd_elapsed d).
Proof.
  intros unit x now d U B S E. cbv zeta. unfold report. rewrite S.
  destruct (Z.eqb_spec (sc_bytes x) 0) as [Z0|Z0].
  - split.
    + split; [discriminate|intros N; exfalso; apply N; auto].
    + intros _. exists []. csplit; [reflexivity|tauto|intros b r []].
  - destruct (Z.eqb_spec (sd_elapsed d) 0) as [Z1|Z1].
    + split; [split; [intros _ [N|(N & _)]; lia|reflexivity]|]. intros [N|(N & _)]; lia.
    + rewrite Z.quot_div_nonneg by nia.
      assert (P : 0 <= sc_bytes x * unit / sd_elapsed d) by (apply Z.div_pos; nia).
      assert (M := Z.mul_div_le (sc_bytes x * unit) (sd_elapsed d) ltac:(lia)).
      assert (M2 := Z.mul_succ_div_gt (sc_bytes x * unit) (sd_elapsed d) ltac:(lia)).
      assert (IFF : sc_bytes x * unit / sd_elapsed d < 2 ^ 64 <-> sc_bytes x * unit < 2 ^ 64 * sd_elapsed d).
      { split; intros H; [|apply Z.div_lt_upper_bound; lia].
        destruct (Z_lt_le_dec (sc_bytes x * unit) (2 ^ 64 * sd_elapsed d)) as [G|G]; [exact G|].
        rewrite Z.mul_comm in G. apply Z.div_le_lower_bound in G; lia. }
      destruct (Z.leb_spec 0 (sc_bytes x * unit / sd_elapsed d)); [|lia].
      destruct (Z.ltb_spec (sc_bytes x * unit / sd_elapsed d) (2 ^ 64)) as [H0|H0]; cbn [andb].
      * split; [split; [discriminate|]|].
        -- intros N. exfalso. apply N. right. split; [lia|]. apply IFF. exact H0.
        -- intros _. exists [Rate (sc_bytes x) (sc_bytes x * unit / sd_elapsed d)]. csplit.
           ++ reflexivity.
           ++ split; [discriminate|lia].
           ++ intros b r [H1|[]]. injection H1 as <- <-. split; [reflexivity|]. lia.
      * split; [split; [intros _|reflexivity]|].
        -- intros [N|(_ & N)]; [lia|]. apply IFF in N. lia.
        -- intros [N|(_ & N)]; [lia|]. apply IFF in N. lia.
Qed.
Print Assumptions C118_report.

(** The shorter constructors. *)
Theorem C118_constructors : forall message bytes d0,
  scoped_new2 message bytes d0 = scoped_new message "" bytes d0 /\
  scoped_new1 bytes d0 = scoped_new "" "" bytes d0 /\
  snd (scoped_new2 message bytes d0) = [Starting message].
Proof. intros. csplit; reflexivity. Qed.
Print Assumptions C118_constructors.

(** ** Naive claims that are false *)

(** One read from 10 to 110 on file 0; a snapshot at 100 and one at 112. *)
Definition ops118 : list op := [OpIO false 0 4096 10 110 false].
Definition tr118 : list event :=
  map ESec (read_started 0 4096 10) ++ map EGet (snapshot_program 100 1) ++
  map ESec (read_finished 0 110) ++ map EGet (snapshot_program 112 1).

Lemma tr118_runs : interleave (map program ops118) (sections tr118).
Proof.
  cbn. repeat (apply (IlStep [] _ _ [])). apply IlNil. constructor; auto.
Qed.

Lemma tr118_ordered : in_order (sections tr118) /\ begin_after timed_or_wait ops118 10.
Proof.
  split; [|intros o [<-|[]] _; cbn; lia].
  unfold in_order. csplit; cbn; try tauto; try (split; [|tauto]; intros u [<-|[]]; lia); try (csplit; auto; intros u [<-|[]]; lia).
  intros [] [|i]; cbn; try tauto. csplit; auto; intros u; try tauto. intros [<-|[]]; lia.
Qed.

(** The parallel time of a difference can be more than the time elapsed between
    the two snapshots. *)
Theorem C118_elapsed_refuted :
  ~ (forall cr ops tr s lo d1 d2 d n,
       interleave (map program ops) (sections tr) -> Forall ordinary ops -> quiet s ->
       in_order (sections tr) -> begin_after timed_or_wait ops lo -> length (s_files s) = n ->
       data_from (firstn (7 + 7 * n) (map snd (reads cr tr s))) = Some d1 ->
       data_from (skipn (7 + 7 * n) (map snd (reads cr tr s))) = Some d2 ->
       sd_sub d2 d1 = Some d -> sd_preads d <= sd_elapsed d).
Proof.
  intros H.
  assert (X := H 0 ops118 tr118 (fresh [0]) 10
    (MkSD 0 0 0 0 0 0 100 [MkFD 0 1 0 4096 0 0 0])
    (MkSD 100 0 100 0 0 0 112 [MkFD 0 1 0 4096 0 100 0])
    (MkSD 100 0 100 0 0 0 12 [MkFD 0 0 0 0 0 100 0]) 1%nat tr118_runs).
  cbn [sd_preads sd_elapsed] in X.
  enough (100 <= 12) by lia. apply X; try reflexivity.
  - repeat constructor.
  - unfold quiet. csplit; try reflexivity. repeat constructor.
  - apply tr118_ordered.
  - apply tr118_ordered.
Qed.
Print Assumptions C118_elapsed_refuted.

(** A snapshot can be torn: here it says that 4096 bytes were read in no
    operation at all; and at a single moment the time of all I/O can be less
    than the time of reading. *)
Definition torn118 : list event :=
  map EGet (firstn 9 (snapshot_program 5 1)) ++ map ESec (read_started 0 4096 10) ++
  map EGet (skipn 9 (snapshot_program 5 1)) ++ map ESec (read_finished 0 110).

Theorem C118_torn_refuted :
  interleave (map program ops118) (sections torn118) /\ gets torn118 = snapshot_program 5 1 /\
  data_from (map snd (reads 0 torn118 (fresh [0]))) =
    Some (MkSD 0 0 0 0 0 0 5 [MkFD 0 0 0 4096 0 0 0]).
Proof.
  csplit; try reflexivity.
  cbn. repeat (apply (IlStep [] _ _ [])). apply IlNil. constructor; auto.
Qed.
Print Assumptions C118_torn_refuted.

Theorem C118_io_at_least_read_refuted :
  exists a b, interleave (map program ops118) (a ++ b) /\
  let d := snapshot 0 200 (sec_run a (fresh [0])) in sd_pios d = 0 /\ sd_preads d = 100.
Proof.
  exists (read_started 0 4096 10 ++ [SecRFinish 0 110; SecPReadDown 110]), [SecIoDown 110].
  split; [|split; reflexivity].
  cbn. repeat (apply (IlStep [] _ _ [])). apply IlNil. constructor; auto.
Qed.
Print Assumptions C118_io_at_least_read_refuted.

(** A snapshot while a read that began at 10 and one that began at 40 run; the
    second ends at 70.  Seen: 60 ticks of reading, 30 + 60 ticks of serial
    reading time, two reads. *)
Example C118_case :
  let tr := map ESec (read_started 0 8 10 ++ read_started 0 16 40 ++ read_finished 0 70) ++
            map EGet (snapshot_program 100 1) ++ map ESec (read_finished 0 120) in
  let ops := [OpIO false 0 8 10 120 false; OpIO false 0 16 40 70 false] in
  interleave (map program ops) (sections tr) /\
  data_from (map snd (reads 3 tr (fresh [5]))) = Some (MkSD 60 0 60 0 0 0 97 [MkFD 5 2 0 24 0 90 0]) /\
  busy_between (is_timed false) ops 10 (latest read_stamp 10 (before 0 tr)) = 60 /\
  time_until (timed_on false 0) ops (latest (file_stamp false 0) 10 (before 12 tr)) = 90 /\
  report 1000 (MkSc "x" "k" (MkSD 0 0 0 0 0 0 0 []) 970 true) (MkSD 60 0 60 0 0 0 97 []) =
    Out [Finished "x"; Rate 970 10000; Stats (MkSD 60 0 60 0 0 0 97 []) "k"].
Proof.
  cbv zeta. csplit; try (vm_compute; reflexivity).
  cbn.
  do 3 (apply (IlStep [] _ _ [_])). 
  do 6 (apply (IlStep [_] _ _ [])).
  do 3 (apply (IlStep [] _ _ [_])). apply IlNil. repeat constructor.
Qed.
