(** Acquire and release. *)
From Coq Require Import ZArith List Bool Lia Permutation Arith.
From Verif Require Import BsModel BsSpec BsProofs PfModel PfInv PfProofs1 PfProofs2 PfProofs3 PfProofs4 PfProofs5 PfProofs6 PfProofs7 PfProofs8.
Import ListNotations.

Lemma hold_none max L Q c p b : Inv max L Q c p ->
  hold p b = None <-> is_internal (B p b) = false /\ has_acq (sops p b) = false.
Proof.
  intros H. split.
  - intros K. split.
    + unfold hold in K. unfold is_internal. destruct (int (B p b)); [discriminate|reflexivity].
    + destruct (has_acq (sops p b)) eqn:E; [|reflexivity]. exfalso. apply (I_nores _ _ _ _ _ H b E). assumption.
  - intros (K1 & K2). unfold hold, is_internal in *. destruct (int (B p b)); [discriminate|].
    destruct (sched p b) as [m|] eqn:Em; [|reflexivity]. destruct (m_res m) eqn:Er; [|reflexivity]. exfalso.
    pose proof (I_res _ _ _ _ _ H b m Em) as K. rewrite Er in K. specialize (K ltac:(discriminate)).
    unfold sops in K2. rewrite Em in K2. congruence.
Qed.
Lemma SC_fr max L L' Q Q' c c' p q : Inv max L Q c p -> Inv max L' Q' c' q -> fr p q -> SC p -> SC q.
Proof.
  intros H1 H2 F [K|(K1 & k & b & r & K2 & K3 & K4)]; [left; rewrite (fr_uns _ _ F); assumption|right].
  destruct F. unfold budget in *. rewrite fr_fe, fr_free, fr_rem. split; [assumption|]. exists k, b, r. rewrite fr_uns. csplit; auto.
  apply (hold_none _ _ _ _ _ _ H2). apply (hold_none _ _ _ _ _ _ H1) in K4. rewrite fr_int, fr_ops. assumption.
Qed.
Lemma rdy_fr c p q : fr p q -> rdy c p -> rdy c q.
Proof.
  intros [] K b K1 K2. rewrite fr_ops. intros K3. specialize (K b K1 K2 K3). specialize (fr_int b). unfold is_internal in fr_int.
  destruct (int (B p b)); [|contradiction]. destruct (int (B q b)); discriminate.
Qed.

(** A block nothing is in progress for. *)
Definition quiet (p : pst) (b : nat) : Prop :=
  wq p b = None /\ (forall m, sched p b = Some m -> m_read m = None /\ fst (m_giver m) = false) /\
  (forall t m, sched p t = Some m -> m_giver m = (true, b) -> False).

Lemma quiet_acq max L Q c p b : Inv max L Q c p -> 1 <= rc (B p b) -> quiet p b.
Proof.
  intros H Hr. unfold quiet. csplit.
  - destruct (wq p b) as [w|] eqn:E; [|reflexivity]. destruct (I_w _ _ _ _ _ H b w E). lia.
  - intros m E. split.
    + destruct (m_read m) as [k|] eqn:Ek; [|reflexivity]. destruct (I_r _ _ _ _ _ H b m k E Ek) as (r & _ & _ & _ & K & _). lia.
    + destruct (m_giver m) as (f, g) eqn:Eg. destruct f; [|reflexivity]. destruct (I_g _ _ _ _ _ H b m g E Eg). lia.
  - intros t m E Eg. destruct (I_g _ _ _ _ _ H t m b E Eg) as (_ & K & _). lia.
Qed.
Lemma quiet_head max Q c p k b m : Inv max [] ((k, b) :: Q) c p -> is_acq k = true -> sched p b = Some m -> m_read m = None ->
  fst (m_giver m) = false -> quiet p b.
Proof.
  intros H Hk Em Er Eg.
  assert (K : forall t m, sched p t = Some m -> m_giver m = (true, b) -> False).
  { intros t m' E E2. destruct (I_g _ _ _ _ _ H t m' b E E2) as (_ & _ & _ & K & _).
    apply prec_head in K; auto. destruct K as (-> & _). rewrite Em in E. injection E as <-. rewrite E2 in Eg. discriminate. }
  unfold quiet. csplit; auto.
  - destruct (wq p b) as [w|] eqn:E; [|reflexivity]. exfalso. destruct (I_w _ _ _ _ _ H b w E) as (_ & _ & _ & K2).
    destruct (w_taker w) as [t|]; [destruct K2 as (m' & T1 & T2 & _); eauto|]. destruct K2 as (_ & _ & _ & _ & _ & K2).
    rewrite (I_ops _ _ _ _ _ H), proj_cons, Nat.eqb_refl in K2. destruct k; discriminate.
  - intros m' E. rewrite Em in E. injection E as <-. auto.
Qed.

(** The acquisition proper. *)
Section Acquire.
Variables (max : nat) (Q : list (pop_kind * nat)) (c c' : client) (p q : pst) (b i : nat) (m m' : meta).
Hypothesis H : Inv max [] Q c p.
Hypothesis Hlive : live c b = true.
Hypothesis Hq : quiet p b.
Hypothesis Em : sched p b = Some m.
Hypothesis Hh : hold p b = Some i.
Hypothesis q_B : forall y, y <> b -> B q y = B p y.
Hypothesis q_Bb : B q b = mkSb (ext (B p b)) (Some i) (dirty (B p b)) (S (rc (B p b))).
Hypothesis q_s : forall y, y <> b -> sched q y = sched p y.
Hypothesis q_sb : sched q b = Some m'.
Hypothesis q_m : m_res m' = None /\ m_ops m' = m_ops m /\ m_giver m' = m_giver m /\ m_read m' = m_read m.
Hypothesis q_wq : wq q = wq p.
Hypothesis q_rds : rds q = rds p.
Hypothesis q_nrd : nrd q = nrd p.
Hypothesis q_uns : uns q = uns p.
Hypothesis q_nblk : nblk (base q) = nblk (base p).
Hypothesis q_frs : free_s (base q) = free_s (base p).
Hypothesis q_disk : disk (base q) = disk (base p).
Hypothesis q_nal : nalloc (base q) = nalloc (base p).
Hypothesis q_rem : remaining (base q) = remaining (base p).
Hypothesis q_free : free_i (base q) = free_i (base p).
Hypothesis q_used : used (base q) = used (base p).
Hypothesis q_mem : forall j, j <> i -> mem (base q) j = mem (base p) j.
Hypothesis q_fe : fe q = fe p.
Hypothesis q_se : se q = del b (se p).
Hypothesis Nf : ~ In b (fe p).
Hypothesis c_live : live c' = live c.
Hypothesis c_own : own c' = own c.
Hypothesis c_vw : forall y, y <> b -> vw c' y = vw c y.
Hypothesis c_simu : simu c' = simu c.
Hypothesis Hr : refs (vw c' b) = S (refs (vw c b)).
Hypothesis Ha : acqd q b (vw c' b).

Lemma inv_acquired : Inv max [] Q c' q /\ (forall y, hold q y = hold p y).
Proof.
  destruct Hq as (Q1 & Q2 & Q3). destruct (Q2 m Em) as (Rd & Gv). destruct q_m as (M1 & M2 & M3 & M4).
  assert (Hhb : hold q b = Some i) by (unfold hold; rewrite q_Bb; reflexivity).
  split.
  2:{ intros y. destruct (Nat.eq_dec y b) as [->|n]; [congruence|]. unfold hold. rewrite q_B, q_s by assumption. reflexivity. }
  assert (Gn : forall g, m_giver m = (true, g) -> False) by (intros g E; rewrite E in Gv; discriminate).
  apply (inv_local max Q c c' p q b); auto; rewrite ?c_own, ?q_used, ?q_disk, ?Hhb, ?Hh, ?q_free, ?q_Bb, ?q_fe, ?q_se, ?q_sb; cbn [ext int dirty rc]; auto.
  - rewrite Em. exists m'. csplit; auto. congruence.
  - intros m0 E. rewrite Em in E. injection E as <-. assumption.
  - intros y j n E. apply q_mem. intros ->. apply n. eapply (hold_uniq H); eassumption.
  - intros m0 _ E. injection E as <-. assumption.
  - intros e E. destruct (I_used _ _ _ _ _ H b e E) as (A1 & A2). csplit; auto. intros y n E2. apply n. symmetry. eapply (I_inj _ _ _ _ _ H); eassumption.
  - intros y e n E. apply (I_used _ _ _ _ _ H y). assumption.
  - intros e d E. apply (I_own _ _ _ _ _ H). assumption.
  - rewrite c_simu. apply (I_simu _ _ _ _ _ H).
  - rewrite Hr, (I_rc _ _ _ _ _ H). reflexivity.
  - lia.
  - lia.
  - intros g w E Et. exfalso. destruct (I_w _ _ _ _ _ H g w E) as (_ & _ & _ & K). rewrite Et in K. destruct K as (m0 & T1 & T2 & _).
    rewrite Em in T1. injection T1 as <-. eauto.
  - intros m0 g E Eg. rewrite Em in E. injection E as <-. exfalso. eauto.
  - intros t m0 E Eg. exfalso. eauto.
  - apply (I_fend _ _ _ _ _ H).
  - apply del_nodup, (I_send _ _ _ _ _ H).
  - intros y n. reflexivity.
  - intros y n. rewrite in_del. tauto.
  - unfold is_evictable, is_acquired. cbn. split; [|discriminate]. rewrite in_del. intros [K|(_ & K)]; contradiction.
  - intros K. contradiction.
  - rewrite in_del. intros (_ & K). contradiction.
  - intros m0 E N. injection E as <-. contradiction.
  - discriminate.
Qed.
End Acquire.

Lemma kind_refl k : kind_eqb k k = true.
Proof. destruct k; reflexivity. Qed.
Lemma next_is_ok p k b r : pseqn p = (k, b) :: r -> next_is p k b = Ok (set_seq p r).
Proof. intros E. unfold next_is. rewrite E, kind_refl, Nat.eqb_refl. reflexivity. Qed.
Lemma head_meta max Q c p k b : Inv max [] ((k, b) :: Q) c p -> exists m, sched p b = Some m /\ m_ops m = k :: proj b Q /\ scheduled_op p k b = true.
Proof.
  intros H. pose proof (I_ops _ _ _ _ _ H b) as E. rewrite proj_cons, Nat.eqb_refl in E. unfold sops in E.
  unfold scheduled_op. destruct (sched p b) as [m|]; [|discriminate]. exists m. rewrite E, kind_refl. auto.
Qed.
Lemma SC_hold p q : uns q = uns p -> budget q = budget p -> (forall y, hold q y = hold p y) -> SC p -> SC q.
Proof.
  intros E1 E2 E3 [K|(K1 & k & b & r & K2 & K3 & K4)]; [left; congruence|right]. split; [congruence|].
  exists k, b, r. rewrite E1, E3. auto.
Qed.

Lemma quiet_data max Q c p b i x : Inv max [] Q c p -> quiet p b -> int (B p b) = Some i -> refs (vw c b) = 0 -> val (vw c b) = Some x ->
  mem (base p) i = x /\ (dirty (B p b) = false -> exists e, ext (B p b) = Some e /\ disk (base p) e = x).
Proof.
  intros H (Q1 & Q2 & Q3) Ei Hr Hv. pose proof (I_data _ _ _ _ _ H b x Hr Hv) as D. unfold data in D. rewrite Ei in D.
  destruct (dirty (B p b)); [split; [assumption|discriminate]|]. destruct D as ((e & D1 & D2) & D3). rewrite Q1 in D2. split; [|eauto].
  destruct D3 as [[]|[D3|D3]]; [assumption|]. exfalso. destruct D3 as [(m & k & r & R1 & R2 & _)|(g & w & R1 & R2 & R3 & _)].
  - destruct (Q2 m R1). congruence.
  - destruct (I_w _ _ _ _ _ H g w R1) as (_ & _ & _ & K). rewrite R3 in K. destruct K as (m & T1 & T2 & _).
    destruct (Q2 m T1) as (_ & K). rewrite T2 in K. discriminate.
Qed.

(** Finishing an operation after the state of the block was changed. *)
Lemma finish max Q c p k b : Inv max [] ((k, b) :: Q) c p -> (is_acq k = true -> 1 <= rc (B p b)) -> (is_dei k = true -> int (B p b) = None) ->
  SC p -> (forall y, y <> b -> refs (vw c y) = 0 -> val (vw c y) <> None -> hd_error (sops p y) = Some op_acquire -> int (B p y) <> None) ->
  (refs (vw c b) = 0 -> val (vw c b) <> None -> hd_error (proj b Q) = Some op_acquire -> int (B p b) <> None) ->
  exists q, op_done p b = Ok q /\ Inv max [] Q c q /\ SC q /\ rdy c q /\ pseqn q = pseqn p /\ uns q = uns p /\ base q = base p.
Proof.
  intros H Ha Hd Hs Hr Hb. destruct (inv_op_done _ _ _ _ _ _ H Ha Hd) as (q & Q1 & Q2 & Q3 & Q4 & Q5 & Q6 & Q7 & Q8 & Q9 & Q10).
  exists q. csplit; auto.
  - apply (SC_hold p q); auto. unfold budget. rewrite Q5, Q6. reflexivity.
  - intros y K1 K2. rewrite Q3, Q5. destruct (Nat.eq_dec y b) as [->|n]; [auto|]. intros K3. apply Hr; auto.
    rewrite (I_ops _ _ _ _ _ H), proj_cons. destruct (Nat.eqb_spec b y); [congruence|assumption].
Qed.

Section Oracles.
Variable pick : nat -> list nat -> nat.
Variable dflt : option Z.
Hypothesis Fresh : fresh_blocks pick.

Lemma inv_pacquire max Q c p0 b (un : bool) r :
  let k := if un then op_acquire_uninitialized else op_acquire in
  Inv max [] ((k, b) :: Q) c p0 -> SC p0 -> rdy c p0 -> live c b = true -> pseqn p0 = (k, b) :: r ->
  exists q i, pacquire dflt p0 b un = Ok (q, i) /\
    let c' := after c (Acq b un) (RData (mem (base q) i)) in
    allowed dflt c (Acq b un) (RData (mem (base q) i)) /\
    Inv max [] Q c' q /\ SC q /\ rdy c' q /\ pseqn q = r /\ uns q = uns p0 /\ nblk (base q) = nblk (base p0).
Proof.
  intros k H0 S0 R0 Hl Es. unfold pacquire. fold k. rewrite (next_is_ok _ _ _ _ Es). cbn [bind].
  assert (Hk : is_acq k = true) by (subst k; destruct un; reflexivity).
  assert (Hkd : is_dei k = true -> False) by (subst k; destruct un; discriminate).
  set (p := set_seq p0 r). assert (H : Inv max [] ((k, b) :: Q) c p) by (apply inv_seq; assumption).
  assert (S1 : SC p) by exact S0. assert (R1 : rdy c p) by exact R0. clear H0 S0 R0 Es.
  change (uns p0) with (uns p). change (nblk (base p0)) with (nblk (base p)). assert (Ep : pseqn p = r) by reflexivity. clearbody p. clear p0.
  destruct (head_meta _ _ _ _ _ _ H) as (m & Em & Mo & So). rewrite So. cbn [negb]. unfold bk.
  assert (Sm : simu c = false) by apply (I_simu _ _ _ _ _ H).
  assert (Hh : exists i, hold p b = Some i).
  { destruct (hold p b) as [i|] eqn:E; [eauto|]. exfalso. apply (I_nores _ _ _ _ _ H b); [|assumption].
    rewrite (I_ops _ _ _ _ _ H), proj_cons, Nat.eqb_refl. cbn. rewrite Hk. reflexivity. }
  destruct Hh as (i & Hh).
  assert (Kp : forall d, keep d (sops p b) = true).
  { intros d. apply has_acq_keep. rewrite (I_ops _ _ _ _ _ H), proj_cons, Nat.eqb_refl. cbn. rewrite Hk. reflexivity. }
  assert (Nf : ~ In b (fe p)) by (intros K; pose proof (I_fe _ _ _ _ _ H b K) as K2; rewrite Kp in K2; discriminate).
  (* the last part *)
  assert (Fin : forall c' p1 q, Inv max [] ((k, b) :: Q) c' q -> 1 <= refs (vw c' b) -> (forall y, y <> b -> vw c' y = vw c y) ->
    Inv max [] ((k, b) :: Q) c p1 -> fr p p1 -> (forall y, hold q y = hold p1 y) -> (forall y, y <> b -> int (B q y) = int (B p1 y)) ->
    fe q = fe p1 -> free_i (base q) = free_i (base p1) -> remaining (base q) = remaining (base p1) -> uns q = uns p1 -> nblk (base q) = nblk (base p1) -> pseqn q = pseqn p1 ->
    exists q', op_done q b = Ok q' /\ base q' = base q /\ Inv max [] Q c' q' /\ SC q' /\ rdy c' q' /\ pseqn q' = r /\ uns q' = uns p /\ nblk (base q') = nblk (base p)).
  { intros c' p1 q Hq Hr Hv H1 F1 Eh Ei E1 E2 E3 E4 E5 E6.
    assert (Sq : SC q).
    { apply (SC_hold p1 q); auto; [unfold budget; rewrite E1, E2, E3; reflexivity|]. eapply (SC_fr _ _ _ _ _ _ _ p); eassumption. }
    destruct (finish max Q c' q k b Hq) as (q' & F2 & F3 & F4 & F5 & F6 & F7 & F8); auto.
    - intros _. rewrite (I_rc _ _ _ _ _ Hq). assumption.
    - intros K. exfalso. auto.
    - intros y n K1 K2. rewrite Hv in K1, K2 by assumption. rewrite (I_ops _ _ _ _ _ Hq), <- (I_ops _ _ _ _ _ H1), Ei by assumption.
      apply (rdy_fr _ _ _ F1 R1); assumption.
    - intros K. lia.
    - exists q'. csplit; auto.
      + rewrite F6, E6, (fr_seq _ _ F1). assumption.
      + rewrite F7, E4, (fr_uns _ _ F1). reflexivity.
      + rewrite F8, E5, (fr_nblk _ _ F1). reflexivity. }
  case_eq (int (B p b)).
  - (* the block is internal *)
    intros i' Ei. unfold is_internal. rewrite Ei. assert (i' = i) by (rewrite (hold_int _ _ Ei) in Hh; congruence). subst i'.
    assert (Mr : m_res m = None) by (apply (I_one _ _ _ _ _ H b m Em); congruence).
    destruct (is_acquired (B p b)) eqn:Ea; cbn [negb].
    + (* acquired already *)
      assert (Rc : 1 <= rc (B p b)) by (unfold is_acquired in Ea; apply Nat.ltb_lt in Ea; lia).
      pose proof (quiet_acq _ _ _ _ _ _ H Rc) as Hq. assert (Rf : 1 <= refs (vw c b)) by (rewrite <- (I_rc _ _ _ _ _ H); assumption).
      cbn [bind]. unfold bk. rewrite Ei. cbn [orb].
      pose proof (I_acq _ _ _ _ _ H b Rf) as (i' & A1 & A2 & A3). rewrite Ei in A1. injection A1 as <-.
      assert (Ns : ~ In b (se p)) by (intros K; destruct (se_facts H b K); lia).
      match goal with |- context [op_done ?st b] => set (q := st) end.
      set (c' := after c (Acq b un) (RData (mem (base p) i))).
      assert (Vb : vw c' b = mkV (val (vw c b)) (S (refs (vw c b))) (work (vw c b)) (drt (vw c b)) (mdf (vw c b))).
      { subst c'. cbn [after]. rewrite Sm. cbn [set_vw vw]. rewrite upd_same. destruct (Nat.eqb_spec (refs (vw c b)) 0); [lia|reflexivity]. }
      assert (Vo : forall y, y <> b -> vw c' y = vw c y).
      { intros y n. subst c'. cbn [after]. rewrite Sm. cbn [set_vw vw]. apply upd_other. assumption. }
      assert (Cc : live c' = live c /\ own c' = own c /\ simu c' = simu c) by (subst c'; cbn [after]; rewrite Sm; csplit; first [reflexivity | exact Sm]).
      destruct Cc as (Cc1 & Cc2 & Cc3).
      assert (K : Inv max [] ((k, b) :: Q) c' q /\ (forall y, hold q y = hold p y)).
      { apply (inv_acquired max ((k, b) :: Q) c c' p q b i m m); subst q; usimp; auto.
        - intros y n. apply upd_other. assumption.
        - rewrite upd_same. reflexivity.
        - unfold del. rewrite notin_remove; [reflexivity|assumption].
        - rewrite Vb. reflexivity.
        - exists i. usimp. rewrite upd_same, Vb. cbn [int dirty ext work drt mdf val]. csplit; auto; apply A3. }
      destruct K as (K1 & K2).
      destruct (Fin c' p q K1) as (q' & F1 & F2 & F3); auto using fr_refl; subst q; usimp; auto.
      * rewrite Vb. cbn [refs]. lia.
      * intros y n. rewrite upd_other by assumption. reflexivity.
      * rewrite F1. cbn [bind]. exists q', i. split; [reflexivity|].
        assert (Em' : mem (base q') i = mem (base p) i) by (rewrite F2; reflexivity). rewrite Em'. fold c'. split; [|exact F3].
        right. eexists. split; [reflexivity|]. split; [auto|]. intros K. lia.
    + (* in the scheduled set *)
      assert (Rc : rc (B p b) = 0) by (unfold is_acquired in Ea; apply Nat.ltb_ge in Ea; lia).
      assert (Ev : is_evictable (B p b) = true) by (unfold is_evictable, is_internal; rewrite Ea, Ei; reflexivity).
      destruct (ev_facts H b Ev) as (_ & Rf & i' & x & A1 & A2 & _). rewrite Ei in A1. injection A1 as <-.
      assert (Is : In b (se p)).
      { destruct (proj2 (I_ev _ _ _ _ _ H b)) as [K|K]; [|contradiction|assumption]. split; [|assumption]. eapply (sched_rng H); eassumption. }
      rewrite (proj2 (has_in b (se p)) Is). rewrite wait_on_read_se.
      destruct (inv_wait_on_read max [] ((k, b) :: Q) c p b m H Em) as (p1 & m1 & W1 & W2 & W3 & W4 & W5 & W6 & W7 & W8 & W9 & W10 & W11).
      rewrite W1. cbn [bind]. unfold bk. usimp. rewrite W4, Ei. cbn [orb].
      pose proof (quiet_head max Q c p1 k b m1 W2 Hk W5 W7 W6) as Hq.
      assert (Ei1 : int (B p1 b) = Some i) by (rewrite W4; assumption).
      destruct (quiet_data max _ c p1 b i x W2 Hq Ei1 Rf A2) as (D1 & D2).
      match goal with |- context [op_done ?st b] => set (q := st) end.
      set (c' := after c (Acq b un) (RData (mem (base p1) i))).
      assert (Vb : vw c' b = mkV (val (vw c b)) 1 (mem (base p1) i) false un).
      { subst c'. cbn [after]. rewrite Sm. cbn [set_vw vw]. rewrite upd_same, Rf. reflexivity. }
      assert (Vo : forall y, y <> b -> vw c' y = vw c y).
      { intros y n. subst c'. cbn [after]. rewrite Sm. cbn [set_vw vw]. apply upd_other. assumption. }
      assert (Cc : live c' = live c /\ own c' = own c /\ simu c' = simu c) by (subst c'; cbn [after]; rewrite Sm; csplit; first [reflexivity | exact Sm]).
      destruct Cc as (Cc1 & Cc2 & Cc3).
      assert (K : Inv max [] ((k, b) :: Q) c' q /\ (forall y, hold q y = hold p1 y)).
      { apply (inv_acquired max ((k, b) :: Q) c c' p1 q b i m1 m1); subst q; usimp; auto.
        - apply hold_int. assumption.
        - intros y n. apply upd_other. assumption.
        - rewrite upd_same, W4. reflexivity.
        - csplit; auto. congruence.
        - rewrite (fr_se _ _ W3). reflexivity.
        - rewrite (fr_fe _ _ W3). assumption.
        - rewrite Vb, Rf. reflexivity.
        - exists i. usimp. rewrite upd_same, Vb. cbn [int dirty ext work drt mdf val]. rewrite A2. csplit; auto; try discriminate.
          + intros _. right. discriminate.
          + intros K. rewrite <- W4 in K. destruct (D2 K) as (e & E1 & E2). rewrite W4 in E1. rewrite E1. cbn. congruence.
          + intros _ _. congruence. }
      destruct K as (K1 & K2).
      destruct (Fin c' p1 q K1) as (q' & F1 & F2 & F3); auto; subst q; usimp; auto.
      * rewrite Vb. cbn [refs]. lia.
      * intros y n. rewrite upd_other by assumption. reflexivity.
      * rewrite F1. cbn [bind]. exists q', i. split; [reflexivity|].
        assert (Em' : mem (base q') i = mem (base p1) i) by (rewrite F2; reflexivity). rewrite Em'. fold c'. split; [|exact F3].
        right. eexists. split; [reflexivity|]. split; [lia|]. intros _ _. rewrite A2. assumption.
  - (* an internal block is reserved *)
    intros Ei. unfold is_internal. rewrite Ei.
    assert (Mr : m_res m = Some i) by (rewrite (hold_res _ _ Em Ei) in Hh; assumption).
    assert (Rf : refs (vw c b) = 0).
    { destruct (Nat.eq_dec (refs (vw c b)) 0) as [|n]; [assumption|]. destruct (I_acq _ _ _ _ _ H b) as (j & K & _); [lia|congruence]. }
    assert (Rc : rc (B p b) = 0) by (rewrite (I_rc _ _ _ _ _ H); assumption).
    assert (Nv : un = false -> val (vw c b) = None).
    { intros Eu. destruct (val (vw c b)) as [x|] eqn:Ev; [|reflexivity]. exfalso. apply (R1 b Rf); [congruence| |assumption].
      rewrite (I_ops _ _ _ _ _ H), proj_cons, Nat.eqb_refl. subst k. rewrite Eu. reflexivity. }
    assert (Cn : negb (un || negb (sb_initialized (B p b))) = false).
    { destruct un; [reflexivity|]. rewrite (I_un _ _ _ _ _ H b Rf (Nv eq_refl)). reflexivity. }
    rewrite Cn. unfold get_ready.
    destruct (inv_wait_giver max [] ((k, b) :: Q) c p b m H Em) as (p1 & m1 & W1 & W2 & W3 & W4 & W5 & W6 & W8 & W9 & W10 & W11).
    rewrite W1. cbn [bind]. unfold with_meta. rewrite W5. cbn [bind]. unfold attach, bk, is_internal. usimp. rewrite W4, Ei, W8, Mr. cbn [bind].
    usimp. rewrite upd_same. cbn [int orb ext dirty rc].
    assert (Ei1 : int (B p1 b) = None) by (rewrite W4; assumption).
    assert (W7 : m_read m1 = None).
    { destruct (m_read m1) as [kk|] eqn:Ek; [|reflexivity]. exfalso. destruct (I_r _ _ _ _ _ W2 b m1 kk W5 Ek) as (rr & _ & K & _). congruence. }
    pose proof (quiet_head max Q c p1 k b m1 W2 Hk W5 W7 W6) as Hq.
    match goal with |- context [op_done (set_base _ ?st) b] => set (s3 := st) end.
    match goal with |- context [op_done ?st b] => set (q := st) end.
    set (c' := after c (Acq b un) (RData (mem s3 i))).
    assert (Vb : vw c' b = mkV (val (vw c b)) 1 (mem s3 i) false un).
    { subst c'. cbn [after]. rewrite Sm. cbn [set_vw vw]. rewrite upd_same, Rf. reflexivity. }
    assert (Vo : forall y, y <> b -> vw c' y = vw c y).
    { intros y n. subst c'. cbn [after]. rewrite Sm. cbn [set_vw vw]. apply upd_other. assumption. }
    assert (Cc : live c' = live c /\ own c' = own c /\ simu c' = simu c) by (subst c'; cbn [after]; rewrite Sm; csplit; first [reflexivity | exact Sm]).
    destruct Cc as (Cc1 & Cc2 & Cc3).
    assert (Eq3 : blk s3 = upd (upd (blk (base p1)) b (mkSb (ext (B p b)) (Some i) (dirty (B p b)) (rc (B p b)))) b
                     (mkSb (ext (B p b)) (Some i) (dirty (B p b)) (S (rc (B p b)))) /\
                  disk s3 = disk (base p1) /\ nalloc s3 = nalloc (base p1) /\ remaining s3 = remaining (base p1) /\ free_i s3 = free_i (base p1) /\
                  used s3 = used (base p1) /\ nblk s3 = nblk (base p1) /\ free_s s3 = free_s (base p1) /\
                  (forall j, j <> i -> mem s3 j = mem (base p1) j) /\ (un = false -> forall d, dflt = Some d -> mem s3 i = d)).
    { subst s3. destruct un; [|destruct dflt as [d|]]; usimp; csplit; auto; try discriminate.
      - intros j n. apply upd_other. assumption.
      - intros _ d' E. injection E as <-. apply upd_same. }
    destruct Eq3 as (E1 & E2 & E3 & E4 & E5 & E6 & E7 & E8 & E9 & E10).
    assert (Sd : dirty (B p1 b) = false /\ (forall x, val (vw c b) = Some x -> exists e, ext (B p1 b) = Some e /\ disk (base p1) e = x) /\
                 (val (vw c b) = None -> ext (B p1 b) = None)).
    { destruct (val (vw c b)) as [x|] eqn:Ev.
      - pose proof (I_data _ _ _ _ _ W2 b x Rf Ev) as D. unfold data in D. rewrite Ei1 in D. destruct D as (D1 & e & D2 & D3).
        destruct Hq as (Q1 & _). rewrite Q1 in D3. csplit; auto; [|discriminate]. intros y Ey. injection Ey as <-. eauto.
      - rewrite (I_un _ _ _ _ _ W2 b Rf Ev). csplit; auto. discriminate. }
    destruct Sd as (Sd1 & Sd2 & Sd3).
    assert (K : Inv max [] ((k, b) :: Q) c' q /\ (forall y, hold q y = hold p1 y)).
    { apply (inv_acquired max ((k, b) :: Q) c c' p1 q b i m1 (set_res m1 None)); subst q; usimp; auto.
      - unfold hold. rewrite Ei1, W5. congruence.
      - intros y n. rewrite E1, !upd_other by assumption. reflexivity.
      - rewrite E1, upd_same, W4. reflexivity.
      - intros y n. rewrite !upd_other by assumption. reflexivity.
      - apply upd_same.
      - unfold del. rewrite notin_remove; [reflexivity|]. rewrite (fr_se _ _ W3). intros K. destruct (se_facts H b K) as (_ & _ & j & x & K2 & _). congruence.
      - rewrite (fr_fe _ _ W3). assumption.
      - rewrite Vb, Rf. reflexivity.
      - exists i. usimp. rewrite E1, upd_same, Vb. cbn [int dirty ext work drt mdf val]. rewrite W4 in Sd1. csplit; auto; try discriminate.
        + rewrite Sd1. discriminate.
        + intros _. rewrite E2. destruct (val (vw c b)) as [x|].
          * destruct (Sd2 x eq_refl) as (e & D1 & D2). rewrite W4 in D1. rewrite D1. cbn. congruence.
          * rewrite <- W4, (Sd3 eq_refl). reflexivity.
        + intros K1 K2. specialize (Nv K2). congruence. }
    destruct K as (K1 & K2).
    destruct (Fin c' p1 q K1) as (q' & F1 & F2 & F3); auto; subst q; usimp; auto.
    + rewrite Vb. cbn [refs]. lia.
    + intros y n. rewrite E1, !upd_other by assumption. reflexivity.
    + rewrite F1. cbn [bind]. exists q', i. split; [reflexivity|].
      assert (Em' : mem (base q') i = mem s3 i) by (rewrite F2; reflexivity). rewrite Em'. fold c'. split; [|exact F3].
      right. eexists. split; [reflexivity|]. split; [lia|]. intros _ Eu. rewrite (Nv Eu). destruct dflt as [d|] eqn:Ed; [|exact I]. apply E10; auto.
Qed.
End Oracles.
