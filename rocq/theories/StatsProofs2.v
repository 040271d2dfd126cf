(** Proofs about the statistics counters: C62 (parallel times). *)

From Coq Require Import ZArith List Bool Lia Permutation.
From Verif Require Import StatsModel StatsSpec StatsProofs.
Import ListNotations.
Local Open Scope Z_scope.

Local Arguments Z.add : simpl never.
Local Arguments Z.sub : simpl never.
Local Arguments Z.mul : simpl never.
Local Arguments Z.opp : simpl never.

(** ** One group as a function of its own events *)

Definition pstep (e : bool * Z) (x : Z * Z * Z) : Z * Z * Z :=
  let '(p, b, a) := x in
  (p + (if a =? 0 then 0 else snd e - b), snd e, if fst e then a + 1 else a - 1).
Definition prun (evs : list (bool * Z)) (x : Z * Z * Z) : Z * Z * Z :=
  fold_left (fun y e => pstep e y) evs x.
Definition pba (g : grp) : Z * Z * Z := (g_p g, g_b g, g_a g).

Definition ev_read (c : section) : list (bool * Z) :=
  match c with SecPReadUp t => [(true, t)] | SecPReadDown t => [(false, t)] | _ => [] end.
Definition ev_write (c : section) : list (bool * Z) :=
  match c with SecPWriteUp t => [(true, t)] | SecPWriteDown t => [(false, t)] | _ => [] end.
Definition ev_io (c : section) : list (bool * Z) :=
  match c with SecIoUp t => [(true, t)] | SecIoDown t => [(false, t)] | _ => [] end.
Definition ev_wait (k : wait_op -> bool) (c : section) : list (bool * Z) :=
  match c with
  | SecWaitUp w t => if k w then [(true, t)] else []
  | SecWaitDown w t => if k w then [(false, t)] else []
  | _ => []
  end.

Lemma prun_app : forall e1 e2 x, prun (e1 ++ e2) x = prun e2 (prun e1 x).
Proof. intros; unfold prun; apply fold_left_app. Qed.

Lemma run_groups : forall tr s,
  let s' := sec_run tr s in
  pba (s_reads s') = prun (flat_map ev_read tr) (pba (s_reads s)) /\
  pba (s_writes s') = prun (flat_map ev_write tr) (pba (s_writes s)) /\
  pba (s_ios s') = prun (flat_map ev_io tr) (pba (s_ios s)) /\
  pba (s_waits s') = prun (flat_map (ev_wait k_all) tr) (pba (s_waits s)) /\
  pba (s_wread s') = prun (flat_map (ev_wait k_read) tr) (pba (s_wread s)) /\
  pba (s_wwrite s') = prun (flat_map (ev_wait k_other) tr) (pba (s_wwrite s)).
Proof.
  intros tr; induction tr; intros s; cbv zeta.
  - cbn. csplit; reflexivity.
  - cbn [sec_run flat_map]. rewrite !prun_app.
    specialize (IHtr (sec_step a s)); cbv zeta in IHtr.
    destruct IHtr as (A&B&C&D&E&F). rewrite A, B, C, D, E, F.
    clear. destruct a; cbn; try (csplit; reflexivity);
      destruct w; cbn; csplit; reflexivity.
Qed.

(** ** Counting ticks *)

Definition tsum (f : Z -> Z) (lo : Z) (n : nat) : Z :=
  sumZ (fun j => f (lo + Z.of_nat j)) (seq 0 n).

Lemma sumZ_map : forall A B (f : B -> Z) (h : A -> B) l,
  sumZ f (map h l) = sumZ (fun a => f (h a)) l.
Proof. intros; induction l; auto. unfold sumZ in *; cbn; lia. Qed.

Lemma tsum_split : forall f lo m k,
  tsum f lo (m + k) = tsum f lo m + tsum f (lo + Z.of_nat m) k.
Proof.
  intros. unfold tsum. rewrite seq_app, sumZ_app. f_equal.
  replace (seq (0 + m) k) with (map (fun j => (m + j)%nat) (seq 0 k)).
  - rewrite sumZ_map. apply sumZ_ext; intros. f_equal; lia.
  - clear. revert m. induction k; intros; auto. cbn. f_equal; [lia|].
    rewrite <- seq_shift, map_map.
    specialize (IHk (S m)). cbn in IHk. rewrite <- IHk.
    apply map_ext; intros; lia.
Qed.

Lemma tsum_ext : forall f g lo n,
  (forall x, lo <= x < lo + Z.of_nat n -> f x = g x) -> tsum f lo n = tsum g lo n.
Proof.
  intros. unfold tsum. apply sumZ_ext; intros a A. apply in_seq in A. apply H; lia.
Qed.

Lemma tsum_const : forall c lo n, tsum (fun _ => c) lo n = c * Z.of_nat n.
Proof.
  intros. unfold tsum. rewrite <- (seq_length n 0) at 2. rewrite length_sumZ.
  induction (seq 0 n); unfold sumZ in *; cbn in *; lia.
Qed.

Definition sgn (e : bool * Z) : Z := if fst e then 1 else -1.
Definition cnt (evs : list (bool * Z)) (x : Z) : Z :=
  sumZ (fun e => if snd e <=? x then sgn e else 0) evs.
Definition ind (z : Z) : Z := if z =? 0 then 0 else 1.

Lemma cnt_all : forall evs x,
  (forall e, In e evs -> snd e <= x) -> cnt evs x = sumZ sgn evs.
Proof.
  intros. unfold cnt. apply sumZ_ext; intros e E.
  apply H in E. destruct (Z.leb_spec (snd e) x); auto; lia.
Qed.

Definition pinv (lo p0 : Z) (pre : list (bool * Z)) (x : Z * Z * Z) : Prop :=
  let '(p, b, a) := x in
  a = sumZ sgn pre /\
  forall n, (forall e, In e pre -> snd e <= lo + Z.of_nat n) ->
    p + (if a =? 0 then 0 else lo + Z.of_nat n - b)
    = p0 + tsum (fun y => ind (cnt pre y)) lo n.

Lemma pinv_step : forall lo p0 pre x e,
  pinv lo p0 pre x -> lo <= snd e -> (forall e', In e' pre -> snd e' <= snd e) ->
  pinv lo p0 (pre ++ [e]) (pstep e x).
Proof.
  intros lo p0 pre [[p b] a] e (A & I) L M.
  assert (S1 : sumZ sgn [e] = if fst e then 1 else -1)
    by (unfold sumZ, sgn; cbn; destruct (fst e); lia).
  unfold pinv, pstep. split.
  - rewrite sumZ_app, S1, A. destruct (fst e); lia.
  - intros n N.
    assert (T : snd e <= lo + Z.of_nat n) by (apply N, in_or_app; right; left; auto).
    set (m := Z.to_nat (snd e - lo)).
    assert (Em : snd e = lo + Z.of_nat m) by (unfold m; lia).
    set (k := (n - m)%nat). assert (En : n = (m + k)%nat) by (unfold k; lia).
    assert (Im := I m ltac:(intros; rewrite <- Em; auto)).
    rewrite En, tsum_split.
    rewrite (tsum_ext _ (fun y => ind (cnt pre y)) lo m).
    2:{ intros y Y. f_equal. unfold cnt. rewrite sumZ_app. unfold sumZ at 2; cbn.
        destruct (Z.leb_spec (snd e) y); lia. }
    rewrite (tsum_ext _ (fun y => ind (if fst e then a + 1 else a - 1))
               (lo + Z.of_nat m) k).
    2:{ intros y Y. f_equal. rewrite cnt_all.
        - rewrite sumZ_app, S1, A. destruct (fst e); lia.
        - intros e' E'. apply in_app_or in E'. destruct E' as [E'|[<-|[]]]; [|lia].
          apply M in E'; lia. }
    rewrite tsum_const. rewrite <- Em in Im. unfold ind in *.
    revert Im. clearbody m k.
    destruct (a =? 0), ((if fst e then a + 1 else a - 1) =? 0); lia.
Qed.

Lemma prun_inv : forall lo p0 post pre x,
  pinv lo p0 pre x ->
  ordered (map snd post) ->
  (forall e, In e post -> lo <= snd e) ->
  (forall e e', In e pre -> In e' post -> snd e <= snd e') ->
  pinv lo p0 (pre ++ post) (prun post x).
Proof.
  intros lo p0 post; induction post; intros pre x I O L M.
  - rewrite app_nil_r. exact I.
  - cbn. cbn in O. destruct O as (O1 & O2).
    replace (pre ++ a :: post) with ((pre ++ [a]) ++ post) by (rewrite <- app_assoc; auto).
    apply IHpost; auto.
    + apply pinv_step; auto.
      * apply L; left; auto.
      * intros; apply M; auto. left; auto.
    + intros; apply L; right; auto.
    + intros e e' E E'. apply in_app_or in E. destruct E as [E|[<-|[]]].
      * apply M; auto. right; auto.
      * apply O1. apply in_map; auto.
Qed.

(** ** Events of complete operations *)

Definition op_events (o : op) : list (bool * Z) :=
  [(true, op_start o); (false, op_finish o)].

Lemma busy_cnt : forall (k : op -> bool) ops x,
  (forall o, In o ops -> k o = true -> op_start o <= op_finish o) ->
  ind (cnt (flat_map op_events (filter k ops)) x) =
  if busy_at k ops x then 1 else 0.
Proof.
  intros k ops x W.
  assert (E : 0 <= cnt (flat_map op_events (filter k ops)) x /\
    (cnt (flat_map op_events (filter k ops)) x = 0 <-> busy_at k ops x = false)).
  { induction ops; cbn [filter flat_map].
    - cbn. split; [lia|tauto].
    - destruct IHops as (I1 & I2); [intros; apply W; auto; right; auto|].
      unfold busy_at in *; cbn [existsb].
      assert (W0 := W a (or_introl eq_refl)).
      destruct (k a); cbn [andb orb]; [|split; auto].
      cbn [flat_map]. unfold cnt in *. rewrite sumZ_app.
      specialize (W0 eq_refl).
      set (r := sumZ _ (flat_map _ _)) in *. clearbody r.
      unfold sumZ; cbn.
      destruct (Z.leb_spec (op_start a) x), (Z.leb_spec (op_finish a) x),
        (Z.ltb_spec x (op_finish a)); cbn; split; try lia;
        rewrite ?orb_false_l; try (rewrite <- I2; lia);
        split; intros; try lia; try discriminate. }
  destruct E as (E1 & E2). unfold ind.
  destruct (Z.eqb_spec (cnt (flat_map op_events (filter k ops)) x) 0) as [Q|Q].
  - apply E2 in Q. rewrite Q; auto.
  - destruct (busy_at k ops x); auto. exfalso; tauto.
Qed.

Lemma busy_time_tsum : forall k ops lo n,
  busy_time k ops lo n = tsum (fun x => if busy_at k ops x then 1 else 0) lo n.
Proof.
  intros. unfold busy_time, tsum. rewrite length_sumZ, sumZ_filter, sumZ_map. reflexivity.
Qed.

Lemma cnt_perm : forall e1 e2 x, Permutation e1 e2 -> cnt e1 x = cnt e2 x.
Proof. intros; unfold cnt; apply sumZ_perm; auto. Qed.

(** The parallel time of one group after complete operations. *)
Lemma prun_busy : forall k ops evs p0 b0 lo n,
  Permutation evs (flat_map op_events (filter k ops)) ->
  ordered (map snd evs) ->
  within k ops lo (lo + Z.of_nat n) ->
  fst (fst (prun evs (p0, b0, 0))) = p0 + busy_time k ops lo n /\
  snd (prun evs (p0, b0, 0)) = 0.
Proof.
  intros k ops evs p0 b0 lo n P O W.
  assert (R : forall e, In e evs -> lo <= snd e <= lo + Z.of_nat n).
  { intros e E. apply (Permutation_in _ P) in E. apply in_flat_map in E.
    destruct E as (o & Fo & Eo). apply filter_In in Fo.
    destruct (W o (proj1 Fo) (proj2 Fo)) as (?&?&?).
    destruct Eo as [<-|[<-|[]]]; cbn; lia. }
  assert (I := prun_inv lo p0 evs [] (p0, b0, 0)).
  cbn [app] in I. destruct (prun evs (p0, b0, 0)) as [[p b] a].
  cbn [fst snd].
  destruct I as (A & I); auto.
  { split; [reflexivity|]. intros. cbn.
    rewrite tsum_const. lia. }
  { intros; apply R; auto. }
  { intros e e' []. }
  assert (A0 : a = 0).
  { rewrite A, (sumZ_perm _ _ _ _ P), sumZ_flat_map.
    rewrite <- (sumZ_zero _ (filter k ops)). apply sumZ_ext; intros. reflexivity. }
  split; [|exact A0].
  specialize (I n ltac:(intros; apply R; auto)).
  rewrite A0 in I. cbn in I. rewrite busy_time_tsum.
  rewrite (tsum_ext _ (fun y => ind (cnt evs y))); [lia|].
  intros x _. rewrite (cnt_perm _ _ _ P), busy_cnt; auto.
  intros o Io Ko. apply (W o Io Ko).
Qed.

Lemma flat_map_perm : forall A B (h : A -> list B) l1 l2,
  Permutation l1 l2 -> Permutation (flat_map h l1) (flat_map h l2).
Proof. intros; apply Permutation_flat_map; auto. Qed.

Lemma flat_map_filter : forall A B (h : A -> list B) (k : A -> bool) l,
  flat_map h (filter k l) = flat_map (fun a => if k a then h a else []) l.
Proof. intros; induction l; auto. cbn. destruct (k a); cbn; rewrite IHl; auto. Qed.

Lemma flat_map_comp : forall A B C (h : A -> list B) (g : B -> list C) l,
  flat_map g (concat (map h l)) = flat_map (fun a => flat_map g (h a)) l.
Proof.
  intros; induction l; auto. cbn. rewrite flat_map_app, IHl; auto.
Qed.

Lemma flat_map_ext_in' : forall A B (h g : A -> list B) l,
  (forall a, In a l -> h a = g a) -> flat_map h l = flat_map g l.
Proof.
  intros A B h g l H; induction l; auto. cbn. rewrite H by (left; auto).
  rewrite IHl; auto. intros; apply H; right; auto.
Qed.

Lemma events_perm : forall (ev : section -> list (bool * Z)) (k : op -> bool) ops tr,
  interleave (map program ops) tr -> Forall ordinary ops ->
  (forall o, ordinary o -> flat_map ev (program o) = if k o then op_events o else []) ->
  Permutation (flat_map ev tr) (flat_map op_events (filter k ops)).
Proof.
  intros ev k ops tr I O H.
  apply Permutation_trans with (flat_map ev (concat (map program ops))).
  - apply flat_map_perm, interleave_perm; auto.
  - rewrite flat_map_comp, flat_map_filter.
    rewrite (flat_map_ext_in' _ _ _ (fun a => if k a then op_events a else [])); auto.
    intros. apply H. rewrite Forall_forall in O; auto.
Qed.

Lemma stamps_map : forall (ev : section -> list (bool * Z)) st tr,
  (forall c, map snd (ev c) = st c) ->
  map snd (flat_map ev tr) = flat_map st tr.
Proof. intros ev st tr H; induction tr; auto. cbn. rewrite map_app, H, IHtr; auto. Qed.

Lemma ordered_sub : forall (st st' : section -> list Z) tr,
  (forall c, st' c = st c \/ st' c = []) ->
  (forall c, (length (st c) <= 1)%nat) ->
  ordered (flat_map st tr) -> ordered (flat_map st' tr).
Proof.
  intros st st' tr H L; induction tr; intros O; [exact I|].
  assert (IN : forall x, In x (flat_map st' tr) -> In x (flat_map st tr)).
  { intros x X. apply in_flat_map in X. destruct X as (c & C & X).
    apply in_flat_map. exists c; split; auto.
    destruct (H c) as [E|E]; rewrite E in X; auto. destruct X. }
  cbn in *. specialize (L a). destruct (H a) as [E|E]; rewrite E.
  - destruct (st a) as [|t [|]]; cbn in *; auto; try lia.
    destruct O as (O1 & O2). split; auto.
  - cbn. apply IHtr. destruct (st a) as [|t [|]]; cbn in *; auto; try lia. tauto.
Qed.

Ltac opcases o := destruct o as [[] j sz st fi []|[] j sz d|[] j sz nw|[] st fi].

Lemma parallel_times : forall ops tr s lo n,
  interleave (map program ops) tr -> Forall ordinary ops -> quiet s ->
  let s' := sec_run tr s in
  (ordered (flat_map read_stamp tr) ->
   within (is_timed false) ops lo (lo + Z.of_nat n) ->
   g_p (s_reads s') = g_p (s_reads s) + busy_time (is_timed false) ops lo n) /\
  (ordered (flat_map write_stamp tr) ->
   within (is_timed true) ops lo (lo + Z.of_nat n) ->
   g_p (s_writes s') = g_p (s_writes s) + busy_time (is_timed true) ops lo n) /\
  (ordered (flat_map io_stamp tr) ->
   within is_timed_any ops lo (lo + Z.of_nat n) ->
   g_p (s_ios s') = g_p (s_ios s) + busy_time is_timed_any ops lo n) /\
  (ordered (flat_map wait_stamp tr) ->
   within is_wait ops lo (lo + Z.of_nat n) ->
   g_p (s_waits s') = g_p (s_waits s) + busy_time is_wait ops lo n /\
   g_p (s_wread s') = g_p (s_wread s) + busy_time is_wait_read ops lo n /\
   g_p (s_wwrite s') = g_p (s_wwrite s) + busy_time is_wait_other ops lo n).
Proof.
  intros ops tr s lo n I O Q. cbv zeta.
  destruct (run_groups tr s) as (A&B&C&D&E&F).
  destruct Q as (_&Q1&Q2&Q3&Q4&Q5&Q6).
  unfold pba in *. rewrite Q1 in A. rewrite Q2 in B. rewrite Q3 in C.
  rewrite Q4 in D. rewrite Q5 in E. rewrite Q6 in F.
  assert (WS : forall k k', (forall o, k' o = true -> k o = true) ->
    within k ops lo (lo + Z.of_nat n) -> within k' ops lo (lo + Z.of_nat n)).
  { intros k k' H W o Io Ko. apply W; auto. }
  csplit.
  - intros OR W.
    destruct (prun_busy (is_timed false) ops (flat_map ev_read tr)
                (g_p (s_reads s)) (g_b (s_reads s)) lo n) as (P & _); auto.
    + apply events_perm; auto. intros o; opcases o; cbn; intros []; reflexivity.
    + rewrite (stamps_map _ read_stamp); auto. intros []; reflexivity.
    + rewrite <- A in P. exact P.
  - intros OR W.
    destruct (prun_busy (is_timed true) ops (flat_map ev_write tr)
                (g_p (s_writes s)) (g_b (s_writes s)) lo n) as (P & _); auto.
    + apply events_perm; auto. intros o; opcases o; cbn; intros []; reflexivity.
    + rewrite (stamps_map _ write_stamp); auto. intros []; reflexivity.
    + rewrite <- B in P. exact P.
  - intros OR W.
    destruct (prun_busy is_timed_any ops (flat_map ev_io tr)
                (g_p (s_ios s)) (g_b (s_ios s)) lo n) as (P & _); auto.
    + apply events_perm; auto. intros o; opcases o; cbn; intros []; reflexivity.
    + rewrite (stamps_map _ io_stamp); auto. intros []; reflexivity.
    + rewrite <- C in P. exact P.
  - intros OR W. csplit.
    + destruct (prun_busy is_wait ops (flat_map (ev_wait k_all) tr)
                (g_p (s_waits s)) (g_b (s_waits s)) lo n) as (P & _); auto.
      * apply events_perm; auto. intros o; opcases o; cbn; intros []; reflexivity.
      * rewrite (stamps_map _ wait_stamp); auto. intros []; reflexivity.
      * rewrite <- D in P. exact P.
    + destruct (prun_busy is_wait_read ops (flat_map (ev_wait k_read) tr)
                (g_p (s_wread s)) (g_b (s_wread s)) lo n) as (P & _); auto.
      * apply events_perm; auto. intros o; opcases o; cbn; intros []; reflexivity.
      * rewrite (stamps_map _ (fun c => map snd (ev_wait k_read c))); auto.
        eapply ordered_sub with (st := wait_stamp); auto.
        -- intros []; cbn; auto; destruct w; cbn; auto.
        -- intros []; cbn; lia.
      * eapply WS; [|exact W]. intros []; cbn; auto.
      * rewrite <- E in P. exact P.
    + destruct (prun_busy is_wait_other ops (flat_map (ev_wait k_other) tr)
                (g_p (s_wwrite s)) (g_b (s_wwrite s)) lo n) as (P & _); auto.
      * apply events_perm; auto. intros o; opcases o; cbn; intros []; reflexivity.
      * rewrite (stamps_map _ (fun c => map snd (ev_wait k_other c))); auto.
        eapply ordered_sub with (st := wait_stamp); auto.
        -- intros []; cbn; auto; destruct w; cbn; auto.
        -- intros []; cbn; lia.
      * eapply WS; [|exact W]. intros []; cbn; auto.
      * rewrite <- F in P. exact P.
Qed.
