(** Proofs about snapshots taken while operations run. *)

From Coq Require Import ZArith List Bool Lia Permutation.
From Verif Require Import StatsModel StatsSpec StatsProofs StatsProofs2 SnapModel SnapSpec WriterProofs.
Import ListNotations.
Local Open Scope Z_scope.

Lemma reads_nth : forall cr tr s j m v, nth_error (reads cr tr s) j = Some (m, v) ->
  v = get cr m (sec_run (before j tr) s) /\ exists rest, sections tr = before j tr ++ rest.
Proof.
  intros cr tr. induction tr as [|[c|g] tr IH]; intros s j m v H.
  - destruct j; discriminate.
  - cbn [reads] in H. destruct (IH _ _ _ _ H) as (A & r & B). cbn [before sec_run]. split; [exact A|].
    exists r. change (sections (ESec c :: tr)) with (c :: sections tr). rewrite B. reflexivity.
  - destruct j as [|j]; cbn [reads nth_error before] in *.
    + injection H as <- <-. split; [reflexivity|]. exists (sections tr). reflexivity.
    + destruct (IH _ _ _ _ H) as (A & r & B). split; [exact A|]. exists r. exact B.
Qed.

Lemma reads_members : forall cr tr s, map fst (reads cr tr s) = gets tr.
Proof.
  intros cr tr. induction tr as [|[c|m] tr IH]; intros s; cbn; auto. f_equal. apply IH.
Qed.

(** ** Events of one mutex, cut at some moment *)

Lemma ordered_app : forall a b, ordered (a ++ b) ->
  ordered a /\ ordered b /\ forall x y, In x a -> In y b -> x <= y.
Proof.
  induction a as [|t a IH]; intros b H; cbn in *.
  - csplit; auto. intros x y [].
  - destruct H as (A & B). destruct (IH _ B) as (C & D & E). csplit; auto.
    + intros u U. apply A. apply in_or_app; auto.
    + intros x y [<-|X] Y; [apply A; apply in_or_app; auto|auto].
Qed.

Lemma last_le : forall a lo, ordered a -> (forall x, In x a -> lo <= x) ->
  lo <= last a lo /\ forall x, In x a -> x <= last a lo.
Proof.
  induction a as [|t a IH]; intros lo O L.
  - cbn. split; [lia|intros x []].
  - destruct O as (A & B). destruct a as [|u a].
    + cbn. split; [apply L; left; auto|]. intros x [<-|[]]. lia.
    + change (last (t :: u :: a) lo) with (last (u :: a) lo).
      destruct (IH lo B (fun x X => L x (or_intror X))) as (C & D). split; [exact C|].
      intros x [<-|X]; [|auto]. specialize (A u (or_introl eq_refl)). specialize (D u (or_introl eq_refl)). lia.
Qed.

Lemma last_in : forall (a : list Z) lo, a <> [] -> In (last a lo) a.
Proof.
  induction a as [|t a IH]; intros lo H; [congruence|].
  destruct a as [|u a]; [left; reflexivity|].
  right. change (last (t :: u :: a) lo) with (last (u :: a) lo). apply IH. discriminate.
Qed.

Lemma last_map_snd : forall (evs : list (bool * Z)) e lo, last (map snd (evs ++ [e])) lo = snd e.
Proof. intros. rewrite map_app. cbn. apply last_last. Qed.

Record cut (k : op -> bool) (ops : list op) (lo : Z) (pre post : list (bool * Z)) : Prop := MkCut {
  cut_perm : Permutation (pre ++ post) (flat_map op_events (filter k ops));
  cut_ord : ordered (map snd (pre ++ post));
  cut_lo : forall e, In e (pre ++ post) -> lo <= snd e;
  cut_wf : forall o, In o ops -> k o = true -> op_start o <= op_finish o }.

Lemma cut_last k ops lo pre post : cut k ops lo pre post ->
  lo <= last (map snd pre) lo /\
  (forall e, In e pre -> snd e <= last (map snd pre) lo) /\
  (forall e, In e post -> last (map snd pre) lo <= snd e).
Proof.
  intros [P O L W]. rewrite map_app in O. apply ordered_app in O. destruct O as (O1 & O2 & O3).
  destruct (last_le (map snd pre) lo O1) as (A & B).
  { intros x X. apply in_map_iff in X. destruct X as (e & <- & E). apply L. apply in_or_app; auto. }
  csplit; auto.
  - intros e E. apply B. apply in_map; auto.
  - intros e E. destruct pre as [|p pre]; [cbn; apply L; exact E|].
    apply O3; [apply last_in; discriminate|apply in_map; auto].
Qed.

Lemma prun_b : forall pre x lo, pre <> [] -> snd (fst (prun pre x)) = last (map snd pre) lo.
Proof.
  intros pre x lo N. destruct pre as [|e pre _] using rev_ind; [congruence|].
  rewrite last_map_snd, prun_app. cbn. destruct (prun pre x) as [[p b] a]. reflexivity.
Qed.

(** The parallel time of one group at any moment. *)
Lemma prun_cut : forall k ops lo pre post p0 b0, cut k ops lo pre post ->
  fst (fst (prun pre (p0, b0, 0))) = p0 + busy_between k ops lo (last (map snd pre) lo).
Proof.
  intros k ops lo pre post p0 b0 C. destruct (cut_last _ _ _ _ _ C) as (A & B & D).
  destruct C as [P O L W].
  set (t := last (map snd pre) lo) in *.
  assert (I := prun_inv lo p0 pre [] (p0, b0, 0)). cbn [app] in I.
  assert (PB := prun_b pre (p0, b0, 0) lo). fold t in PB.
  destruct (prun pre (p0, b0, 0)) as [[p b] a]. cbn [fst snd] in *.
  destruct I as (SA & I).
  { split; [reflexivity|]. intros. cbn. rewrite tsum_const. lia. }
  { rewrite map_app in O. apply (ordered_app _ _ O). }
  { intros e E. apply L. apply in_or_app; auto. }
  { intros e e' []. }
  specialize (I (Z.to_nat (t - lo))). rewrite Z2Nat.id in I by lia.
  replace (lo + (t - lo)) with t in I by lia.
  specialize (I B).
  assert (Z0 : (if a =? 0 then 0 else t - b) = 0).
  { destruct pre as [|e pre]; [cbn in SA; subst a; reflexivity|].
    assert (PB' : b = t) by (apply PB; discriminate). rewrite PB'. destruct (a =? 0); lia. }
  rewrite Z0 in I. rewrite Z.add_0_r in I. rewrite I. f_equal.
  unfold busy_between. rewrite busy_time_tsum. apply tsum_ext. intros x X.
  rewrite Z2Nat.id in X by lia.
  rewrite <- (busy_cnt k ops x W). f_equal.
  rewrite <- (cnt_perm _ _ x P). unfold cnt. rewrite sumZ_app.
  rewrite (sumZ_ext _ _ (fun _ => 0) post), sumZ_zero; [lia|]. intros e E.
  specialize (D e E). destruct (Z.leb_spec (snd e) x); lia.
Qed.

(** Durations up to the last event. *)
Lemma time_cut : forall k ops lo pre post, cut k ops lo pre post ->
  let t := last (map snd pre) lo in
  time_until k ops t = sumZ (fun e => - (sgn e * snd e)) pre + t * sumZ sgn pre.
Proof.
  intros k ops lo pre post C t. destruct (cut_last _ _ _ _ _ C) as (A & B & D). fold t in A, B, D.
  destruct C as [P O L W].
  set (h := fun e : bool * Z => - (sgn e * Z.min (snd e) t)).
  assert (E1 : time_until k ops t = sumZ h (flat_map op_events (filter k ops))).
  { unfold time_until. rewrite sumZ_flat_map, sumZ_filter. apply sumZ_ext. intros o _.
    destruct (k o); auto. unfold h, op_events, sumZ, sgn. cbn [fold_right fst snd]. lia. }
  rewrite E1, <- (sumZ_perm _ h _ _ P), sumZ_app.
  assert (S0 : sumZ sgn pre + sumZ sgn post = 0).
  { rewrite <- sumZ_app, (sumZ_perm _ _ _ _ P), sumZ_flat_map.
    rewrite <- (sumZ_zero _ (filter k ops)). apply sumZ_ext. intros; reflexivity. }
  assert (H1 : sumZ h pre = sumZ (fun e => - (sgn e * snd e)) pre).
  { apply sumZ_ext. intros e E. unfold h. rewrite Z.min_l; auto. }
  assert (H2 : sumZ h post = - (t * sumZ sgn post)).
  { clear - D. unfold sumZ. induction post as [|e post IH]; [cbn; lia|]. cbn [fold_right].
    rewrite IH by (intros x X; apply D; right; auto). unfold h.
    rewrite Z.min_r by (apply D; left; auto). lia. }
  rewrite H1, H2. nia.
Qed.

(** Sections of a run give a cut of the events of their mutex. *)
Lemma cut_sections : forall (ev : section -> list (bool * Z)) (st : section -> list Z) (k : op -> bool) ops pre rest lo,
  interleave (map program ops) (pre ++ rest) -> Forall ordinary ops ->
  (forall o, ordinary o -> flat_map ev (program o) = if k o then op_events o else []) ->
  (forall c, map snd (ev c) = st c) ->
  ordered (flat_map st (pre ++ rest)) -> begin_after k ops lo ->
  cut k ops lo (flat_map ev pre) (flat_map ev rest) /\
  map snd (flat_map ev pre) = flat_map st pre.
Proof.
  intros ev st k ops pre rest lo I O H M OR BA.
  assert (P : Permutation (flat_map ev pre ++ flat_map ev rest) (flat_map op_events (filter k ops))).
  { rewrite <- flat_map_app. apply events_perm; auto. }
  split; [constructor|apply stamps_map; auto].
  - exact P.
  - rewrite <- flat_map_app, (stamps_map ev st); auto.
  - intros e E. apply (Permutation_in _ P) in E. apply in_flat_map in E. destruct E as (o & Fo & Eo).
    apply filter_In in Fo. destruct (BA o (proj1 Fo) (proj2 Fo)) as (?&?).
    destruct Eo as [<-|[<-|[]]]; cbn; lia.
  - intros o Io Ko. apply (BA o Io Ko).
Qed.

(** ** Parallel times *)

Lemma parallel_seen : forall ev st (k : op -> bool) ops pre rest lo g g',
  interleave (map program ops) (pre ++ rest) -> Forall ordinary ops ->
  (forall o, ordinary o -> flat_map ev (program o) = if k o then op_events o else []) ->
  (forall c, map snd (ev c) = st c) ->
  ordered (flat_map st (pre ++ rest)) -> begin_after k ops lo ->
  g_a g = 0 -> pba g' = prun (flat_map ev pre) (pba g) ->
  g_p g' = g_p g + busy_between k ops lo (latest st lo pre).
Proof.
  intros ev st k ops pre rest lo g g' I O H M OR BA A R.
  destruct (cut_sections ev st k ops pre rest lo I O H M OR BA) as (C & E).
  assert (X := prun_cut k ops lo _ _ (g_p g) (g_b g) C). unfold latest. rewrite <- E, <- X.
  unfold pba in R. rewrite A in R. rewrite <- R. reflexivity.
Qed.

(** ** Waiting times *)

Lemma wait_sums : forall k pre,
  sumZ (wt_time k) pre = sumZ (fun e => - (sgn e * snd e)) (flat_map (ev_wait k) pre) /\
  sumZ (wt_acc k) pre = sumZ sgn (flat_map (ev_wait k) pre).
Proof.
  intros k pre. rewrite !sumZ_flat_map. split; apply sumZ_ext; intros c _; destruct c; auto;
    unfold sumZ, sgn; cbn [wt_time wt_acc ev_wait]; destruct (k w); cbn [fold_right fst snd]; lia.
Qed.

Lemma wait_seen : forall kw st (k : op -> bool) ops pre rest lo g g',
  interleave (map program ops) (pre ++ rest) -> Forall ordinary ops ->
  (forall o, ordinary o -> flat_map (ev_wait kw) (program o) = if k o then op_events o else []) ->
  (forall c, map snd (ev_wait kw c) = st c) ->
  ordered (flat_map st (pre ++ rest)) -> begin_after k ops lo ->
  g_a g = 0 -> pba g' = prun (flat_map (ev_wait kw) pre) (pba g) ->
  gt_rel g g' (sumZ (wt_time kw) pre) (sumZ (wt_acc kw) pre) ->
  g_t g' = g_t g + time_until k ops (latest st lo pre).
Proof.
  intros kw st k ops pre rest lo g g' I O H M OR BA A R (T1 & T2).
  destruct (cut_sections (ev_wait kw) st k ops pre rest lo I O H M OR BA) as (C & E).
  assert (X := time_cut k ops lo _ _ C). cbv zeta in X. rewrite E in X. fold (latest st lo pre) in X.
  rewrite X. destruct (wait_sums kw pre) as (W1 & W2). rewrite <- W1, <- W2.
  rewrite A in T1, T2. rewrite T2 in T1.
  destruct (flat_map (ev_wait kw) pre) as [|e l] eqn:F.
  - cbn in W1, W2. rewrite W2 in *. rewrite W1 in *. lia.
  - assert (B : g_b g' = latest st lo pre).
    { unfold latest. rewrite <- E. rewrite <- (prun_b (e :: l) (pba g) lo) by discriminate.
      rewrite <- R. reflexivity. }
    rewrite B in T1. lia.
Qed.

(** ** Files *)

Definition ev_file (w : bool) (i : nat) (c : section) : list (bool * Z) :=
  match c with
  | SecWStart j _ t => if w && Nat.eqb j i then [(true, t)] else []
  | SecWFinish j t => if w && Nat.eqb j i then [(false, t)] else []
  | SecRStart j _ t => if negb w && Nat.eqb j i then [(true, t)] else []
  | SecRFinish j t => if negb w && Nat.eqb j i then [(false, t)] else []
  | _ => []
  end.

Lemma ev_file_stamp w i c : map snd (ev_file w i c) = file_stamp w i c.
Proof. destruct c; cbn; auto; destruct w, (Nat.eqb file i); reflexivity. Qed.

Lemma ev_file_program w i o : ordinary o ->
  flat_map (ev_file w i) (program o) = if timed_on w i o then op_events o else [].
Proof.
  intros O. destruct o as [[] j sz st fi []|[] j sz d|[] j sz nw|[] st fi]; cbn in O; try contradiction;
    unfold timed_on; cbn; destruct w; cbn; try reflexivity; destruct (Nat.eqb j i); reflexivity.
Qed.

Lemma file_sums i pre :
  sumZ (w_time i) pre = sumZ (fun e => - (sgn e * snd e)) (flat_map (ev_file true i) pre) + sumZ (kernel_time true i) pre /\
  sumZ (w_acc i) pre = sumZ sgn (flat_map (ev_file true i) pre) /\
  sumZ (r_time i) pre = sumZ (fun e => - (sgn e * snd e)) (flat_map (ev_file false i) pre) + sumZ (kernel_time false i) pre /\
  sumZ (r_acc i) pre = sumZ sgn (flat_map (ev_file false i) pre) /\
  sumZ (w_count i) pre = sumZ (counted true i) pre /\
  sumZ (w_bytes i) pre = sumZ (counted_bytes true i) pre /\
  sumZ (r_count i) pre = sumZ (counted false i) pre /\
  sumZ (r_bytes i) pre = sumZ (counted_bytes false i) pre.
Proof.
  rewrite !sumZ_flat_map. unfold sumZ. induction pre as [|c pre IH]; [cbn; csplit; reflexivity|].
  cbn [fold_right]. destruct IH as (H1 & H2 & H3 & H4 & H5 & H6 & H7 & H8).
  rewrite H1, H2, H3, H4, H5, H6, H7, H8.
  unfold sgn.
  destruct c; cbn [w_time w_acc r_time r_acc w_count w_bytes r_count r_bytes ev_file kernel_time counted counted_bytes negb andb];
    unfold hit; try (cbn [fold_right]; csplit; lia); destruct (Nat.eqb file i);
    cbn [fold_right fst snd]; csplit; lia.
Qed.

Lemma step_begin c s i f f' : nth_error (s_files s) i = Some f ->
  nth_error (s_files (sec_step c s)) i = Some f' ->
  fs_wbegin f' = last (file_stamp true i c) (fs_wbegin f) /\
  fs_rbegin f' = last (file_stamp false i c) (fs_rbegin f).
Proof.
  intros H H'.
  destruct c; cbn [sec_step on_file on_reads on_writes on_ios on_waits s_files] in H';
    try (rewrite H in H'; injection H' as <-; split; reflexivity);
    rewrite (nth_upd _ _ _ _ _ H) in H'; injection H' as <-; cbn;
    destruct (Nat.eqb file i); split; reflexivity.
Qed.

Lemma last_app (a b : list Z) d : last (a ++ b) d = last b (last a d).
Proof.
  induction b as [|x b IH] using rev_ind; [rewrite app_nil_r; reflexivity|].
  rewrite app_assoc, !last_last. reflexivity.
Qed.

Lemma run_begin pre : forall s i f f', nth_error (s_files s) i = Some f ->
  nth_error (s_files (sec_run pre s)) i = Some f' ->
  fs_wbegin f' = last (flat_map (file_stamp true i) pre) (fs_wbegin f) /\
  fs_rbegin f' = last (flat_map (file_stamp false i) pre) (fs_rbegin f).
Proof.
  induction pre as [|c pre IH]; intros s i f f' H H'.
  - cbn in *. rewrite H in H'. injection H' as <-. split; reflexivity.
  - cbn [sec_run] in H'. destruct (sec_file c s i f H) as (g & G & _).
    destruct (step_begin c s i f g H G) as (A & B). destruct (IH _ _ _ _ G H') as (C & D).
    cbn [flat_map]. rewrite !last_app, <- A, <- B. split; assumption.
Qed.

Lemma last_default (a : list Z) d e : a <> [] -> last a d = last a e.
Proof.
  intros H. destruct a as [|x a _] using rev_ind; [congruence|]. rewrite !last_last. reflexivity.
Qed.

Lemma file_seen : forall ops pre rest lo s i f f',
  interleave (map program ops) (pre ++ rest) -> Forall ordinary ops ->
  (forall w, ordered (flat_map (file_stamp w i) (pre ++ rest))) ->
  (forall w, begin_after (timed_on w i) ops lo) -> quiet_file f ->
  nth_error (s_files s) i = Some f -> nth_error (s_files (sec_run pre s)) i = Some f' ->
  fs_wtime f' = fs_wtime f + time_until (timed_on true i) ops (latest (file_stamp true i) lo pre)
                + sumZ (kernel_time true i) pre /\
  fs_rtime f' = fs_rtime f + time_until (timed_on false i) ops (latest (file_stamp false i) lo pre)
                + sumZ (kernel_time false i) pre.
Proof.
  intros ops pre rest lo s i f f' I O OR BA (Q1 & Q2) H H'.
  destruct (run_file pre s i f H) as (g & G & R). rewrite H' in G. injection G as <-.
  destruct R as (_ & T1 & A1 & _ & _ & T2 & A2 & _ & _).
  destruct (file_sums i pre) as (S1 & S2 & S3 & S4 & _).
  destruct (run_begin pre s i f f' H H') as (B1 & B2).
  rewrite Q2 in T1, A1. rewrite Q1 in T2, A2.
  assert (X : forall w t t' a b kt, 
    t' - a * b = t + (sumZ (fun e => - (sgn e * snd e)) (flat_map (ev_file w i) pre) + kt) ->
    a = sumZ sgn (flat_map (ev_file w i) pre) ->
    (flat_map (file_stamp w i) pre <> [] -> b = latest (file_stamp w i) lo pre) ->
    t' = t + time_until (timed_on w i) ops (latest (file_stamp w i) lo pre) + kt).
  { intros w t t' a b kt E1 E2 E3.
    destruct (cut_sections (ev_file w i) (file_stamp w i) (timed_on w i) ops pre rest lo I O
                (fun o => ev_file_program w i o) (ev_file_stamp w i) (OR w) (BA w)) as (C & E).
    assert (Y := time_cut _ ops lo _ _ C). cbv zeta in Y. rewrite E in Y.
    fold (latest (file_stamp w i) lo pre) in Y. rewrite Y. rewrite <- E2.
    destruct (flat_map (ev_file w i) pre) as [|e l] eqn:F.
    - cbn in E2, E1. subst a. cbn in *. lia.
    - rewrite E3 in E1; [lia|]. rewrite <- E. discriminate. }
  split.
  - apply (X true _ _ (fs_wacc f') (fs_wbegin f')); try lia.
    intros N. rewrite B1. apply last_default; exact N.
  - apply (X false _ _ (fs_racc f') (fs_rbegin f')); try lia.
    intros N. rewrite B2. apply last_default; exact N.
Qed.

Lemma busy_split k ops lo a b : lo <= a <= b ->
  busy_between k ops lo b = busy_between k ops lo a + busy_between k ops a b /\
  0 <= busy_between k ops a b <= b - a.
Proof.
  intros H. unfold busy_between. split.
  - rewrite !busy_time_tsum.
    replace (Z.to_nat (b - lo)) with (Z.to_nat (a - lo) + Z.to_nat (b - a))%nat by lia.
    rewrite tsum_split, Z2Nat.id by lia. do 2 f_equal. lia.
  - unfold busy_time. split; [lia|].
    assert (FL : forall (q : Z -> bool) l, (length (filter q l) <= length l)%nat).
    { intros q l. induction l as [|x l IH]; cbn; [lia|]. destruct (q x); cbn; lia. }
    assert (L := FL (busy_at k ops) (map (fun j => a + Z.of_nat j) (seq 0 (Z.to_nat (b - a))))).
    rewrite map_length, seq_length in L. lia.
Qed.

(** ** Snapshots *)

Lemma before_mono : forall tr j1 j2, (j1 <= j2)%nat -> exists mid, before j2 tr = before j1 tr ++ mid.
Proof.
  induction tr as [|[c|m] tr IH]; intros j1 j2 H.
  - exists []. destruct j1, j2; reflexivity.
  - destruct (IH j1 j2 H) as (mid & E). exists mid. cbn [before app]. rewrite E. destruct j1, j2; reflexivity.
  - destruct j1 as [|j1].
    + exists (before j2 (EGet m :: tr)). reflexivity.
    + destruct j2 as [|j2]; [lia|]. apply IH. lia.
Qed.

Lemma reads_app cr : forall a b s, reads cr (a ++ b) s = reads cr a s ++ reads cr b (sec_run (sections a) s).
Proof.
  induction a as [|[c|m] a IH]; intros b s; auto.
  - cbn [reads app]. rewrite IH. reflexivity.
  - cbn [reads app]. rewrite IH. reflexivity.
Qed.

Lemma reads_gets cr : forall l s, reads cr (map EGet l) s = map (fun m => (m, get cr m s)) l.
Proof. induction l as [|m l IH]; intros s; cbn; auto. rewrite IH. reflexivity. Qed.

Lemma sections_secs : forall l, sections (map ESec l) = l.
Proof. induction l as [|c l IH]; auto. change (c :: sections (map ESec l) = c :: l). congruence. Qed.

Lemma sections_gets : forall l, sections (map EGet l) = [].
Proof. induction l; auto. Qed.

Definition fl (b n : nat) : list member := flat_map (fun i => map (MFile i) fields) (seq b n).
Lemma fl_S b n : fl b (S n) = [MFile b FDev; MFile b FRCount; MFile b FWCount; MFile b FRBytes;
  MFile b FWBytes; MFile b FRTime; MFile b FWTime] ++ fl (S b) n.
Proof. reflexivity. Qed.

Lemma files_from_all cr s : forall l n, 
  (forall k, nth_error l k = nth_error (s_files s) (n + k)) ->
  files_from (map (fun m => get cr m s) (fl n (length l))) = map to_fdata l.
Proof.
  induction l as [|f l IH]; intros n H; auto.
  cbn [length]. rewrite fl_S. cbn [map app files_from].
  rewrite (IH (S n)).
  - cbn [get]. specialize (H 0%nat). rewrite Nat.add_0_r in H. cbn in H. rewrite <- H. reflexivity.
  - intros k. specialize (H (S k)). cbn [nth_error] in H. rewrite H. f_equal. lia.
Qed.

Lemma sec_files_length c s : length (s_files (sec_step c s)) = length (s_files s).
Proof.
  assert (U : forall i h l, length (upd i h l) = length l).
  { intros i h l. revert i. induction l; intros [|i]; cbn; auto. }
  destruct c; cbn; auto.
Qed.

Lemma run_files_length pre : forall s, length (s_files (sec_run pre s)) = length (s_files s).
Proof. induction pre as [|c pre IH]; intros s; auto. cbn [sec_run]. rewrite IH. apply sec_files_length. Qed.

Lemma files_from_nth : forall n b vals i f d,
  length vals = length (fl b n) ->
  nth_error (files_from vals) i = Some d ->
  forall j v, nth_error (fl b n) j = Some (MFile (b + i) f) ->
  nth_error vals j = Some v ->
  v = match f with
      | FDev => fd_dev d
      | FRCount => fd_rcount d | FWCount => fd_wcount d
      | FRBytes => fd_rbytes d | FWBytes => fd_wbytes d
      | FRTime => fd_rtime d | FWTime => fd_wtime d
      end.
Proof.
  induction n as [|n IH]; intros b vals i f d L H j v J V.
  - destruct j; discriminate.
  - rewrite fl_S in *. cbn [app length] in L.
    destruct vals as [|v1 [|v2 [|v3 [|v4 [|v5 [|v6 [|v7 vals]]]]]]]; try (cbn in L; lia).
    cbn [files_from] in H. cbn [length] in L.
    do 7 (destruct j as [|j]; [
      cbn in J; injection J as Ji Jf; assert (i = 0%nat) by lia; subst i; cbn in H; injection H as <-;
      cbn in V; injection V as <-; subst f; reflexivity|]).
    cbn [app nth_error] in J, V.
    assert (N : (S b <= b + i)%nat).
    { clear - J. unfold fl in J. apply nth_error_In in J. apply in_flat_map in J. destruct J as (q & Q & J).
      apply in_seq in Q. apply in_map_iff in J. destruct J as (x & E & _). injection E as E _. lia. }
    destruct i as [|i]; [lia|]. cbn [nth_error] in H.
    replace (b + S i)%nat with (S b + i)%nat in J by lia.
    apply (IH (S b) vals i f d ltac:(lia) H j v J V).
Qed.

Lemma files_from_length : forall n b vals,
  length vals = length (fl b n) -> length (files_from vals) = n.
Proof.
  induction n as [|n IH]; intros b vals L.
  - destruct vals; [reflexivity|discriminate].
  - rewrite fl_S in L. cbn [app length] in L.
    destruct vals as [|v1 [|v2 [|v3 [|v4 [|v5 [|v6 [|v7 vals]]]]]]]; try (cbn in L; lia).
    cbn [files_from length]. f_equal. apply (IH (S b)). cbn [length] in L. lia.
Qed.
