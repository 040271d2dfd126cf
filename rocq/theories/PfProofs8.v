(** Changing one block, and finishing an operation. *)
From Coq Require Import ZArith List Bool Lia Permutation Arith.
From Verif Require Import BsModel BsSpec BsProofs PfModel PfInv PfProofs1 PfProofs2 PfProofs3 PfProofs4 PfProofs5 PfProofs6 PfProofs7.
Import ListNotations.

Section Local.
Variables (max : nat) (Q : list (pop_kind * nat)) (c c' : client) (p q : pst) (b : nat).
Hypothesis H : Inv max [] Q c p.
Hypothesis Hlive : live c b = true.
Hypothesis q_B : forall y, y <> b -> B q y = B p y.
Hypothesis q_s : forall y, y <> b -> sched q y = sched p y.
Hypothesis q_sb : match sched p b with
  | None => sched q b = None
  | Some m => exists m', sched q b = Some m' /\ m_ops m' = m_ops m /\ m_giver m' = m_giver m /\ m_read m' = None
  end.
Hypothesis q_wq : wq q = wq p.
Hypothesis q_rds : rds q = rds p.
Hypothesis q_nrd : nrd q = nrd p.
Hypothesis q_uns : uns q = uns p.
Hypothesis q_nblk : nblk (base q) = nblk (base p).
Hypothesis q_frs : free_s (base q) = free_s (base p).
Hypothesis q_disk : disk (base q) = disk (base p).
Hypothesis q_nal : nalloc (base q) = nalloc (base p).
Hypothesis q_rem : remaining (base q) = remaining (base p).
Hypothesis Wb : wq p b = None.
Hypothesis Rb : forall m, sched p b = Some m -> m_read m = None.
Hypothesis Mem : forall y i, y <> b -> hold p y = Some i -> mem (base q) i = mem (base p) i.
Hypothesis Cnt : forall j, cnt j (free_i (base q)) + cnt j (opt (hold q b)) = cnt j (free_i (base p)) + cnt j (opt (hold p b)).
Hypothesis One : forall m, int (B q b) <> None -> sched q b = Some m -> m_res m = None.
Hypothesis Ext : forall e, ext (B q b) = Some e -> In e (used (base q)) /\ own c' e = None /\ forall y, y <> b -> ext (B p y) <> Some e.
Hypothesis Used : forall y e, y <> b -> ext (B p y) = Some e -> In e (used (base q)) /\ own c' e = None.
Hypothesis Own : forall e d, own c' e = Some d -> In e (used (base q)) /\ disk (base q) e = d.
Hypothesis c_live : live c' = live c.
Hypothesis c_vw : forall y, y <> b -> vw c' y = vw c y.
Hypothesis c_simu : simu c' = false.
Hypothesis Rc : rc (B q b) = refs (vw c' b).
Hypothesis Un : refs (vw c' b) = 0 -> val (vw c' b) = None -> B q b = sb_new.
Hypothesis Data : forall x, refs (vw c' b) = 0 -> val (vw c' b) = Some x -> data [] q b x.
Hypothesis Acq' : 1 <= refs (vw c' b) -> acqd q b (vw c' b).
Hypothesis Takers : forall g w, wq p g = Some w -> w_taker w = Some b ->
  int (B p b) = None /\ int (B q b) = None /\ hold q b = hold p b /\ mem (base q) (w_buf w) = mem (base p) (w_buf w).
Hypothesis Giver : forall m g, sched p b = Some m -> m_giver m = (true, g) -> rc (B q b) = 0.
Hypothesis Given : forall t m, sched p t = Some m -> m_giver m = (true, b) -> rc (B q b) = 0 /\ ~ In b (fe q).
Hypothesis Fnd : NoDup (fe q).
Hypothesis Snd : NoDup (se q).
Hypothesis Fo : forall y, y <> b -> (In y (fe q) <-> In y (fe p)).
Hypothesis So : forall y, y <> b -> (In y (se q) <-> In y (se p)).
Hypothesis Ev : In b (fe q) \/ In b (se q) <-> is_evictable (B q b) = true.
Hypothesis Fk : In b (fe q) -> keep (dirty (B q b)) (sops p b) = false.
Hypothesis Sk : In b (se q) -> keep (dirty (B q b)) (sops p b) = true.
Hypothesis Res : forall m, sched q b = Some m -> m_res m <> None -> has_acq (m_ops m) = true.
Hypothesis Nores : has_acq (sops p b) = true -> hold q b <> None.

Lemma l_rng : b < nblk (base p).
Proof. apply (I_live _ _ _ _ _ H) in Hlive. tauto. Qed.
Lemma l_hold y : y <> b -> hold q y = hold p y.
Proof. intros n. unfold hold. rewrite q_B, q_s by assumption. reflexivity. Qed.
Lemma l_sops y : sops q y = sops p y.
Proof.
  unfold sops. destruct (Nat.eq_dec y b) as [->|n]; [|rewrite q_s by assumption; reflexivity].
  destruct (sched p b); [destruct q_sb as (m' & -> & -> & _)|rewrite q_sb]; reflexivity.
Qed.
Lemma l_sched y m' : sched q y = Some m' -> exists m, sched p y = Some m /\ m_ops m' = m_ops m /\ m_giver m' = m_giver m /\
  m_read m' = m_read m /\ (y <> b -> m' = m).
Proof.
  intros E. destruct (Nat.eq_dec y b) as [->|n].
  - destruct (sched p b) as [m|] eqn:Em; [|congruence]. destruct q_sb as (m0 & K1 & K2 & K3 & K4). rewrite K1 in E. injection E as <-.
    exists m. csplit; auto. rewrite (Rb m eq_refl). assumption. intros n. contradiction.
  - rewrite q_s in E by assumption. exists m'. csplit; auto.
Qed.
Lemma l_sched_fw y m : sched p y = Some m -> exists m', sched q y = Some m' /\ m_ops m' = m_ops m /\ m_giver m' = m_giver m /\
  m_read m' = m_read m /\ (y <> b -> m' = m).
Proof.
  intros E. destruct (Nat.eq_dec y b) as [->|n].
  - pose proof (Rb m E) as K. rewrite E in q_sb. destruct q_sb as (m0 & K1 & K2 & K3 & K4). exists m0. csplit; auto; [congruence|].
    intros n. contradiction.
  - exists m. rewrite q_s by assumption. csplit; auto.
Qed.
Lemma l_dsk y z : y <> b -> dsk p y z -> dsk q y z.
Proof. intros n (e & D1 & D2). exists e. rewrite q_B, q_wq, q_disk by assumption. auto. Qed.

Lemma inv_local : Inv max [] Q c' q.
Proof.
  pose proof H as H0. pose proof l_rng as Rg. destruct H. constructor; rewrite ?q_wq, ?q_rds, ?q_nrd, ?q_uns, ?q_nblk, ?q_frs, ?q_nal, ?q_rem, ?c_live; auto.
  - intros j. pose proof (I_cnt j) as K. pose proof (hl_upd (nblk (base p)) (hold p) (hold q) b j Rg l_hold) as K2. specialize (Cnt j). lia.
  - intros y m E N. destruct (Nat.eq_dec y b) as [->|n]; [auto|]. rewrite q_s in E by assumption. rewrite q_B in N by assumption. eauto.
  - intros y e. destruct (Nat.eq_dec y b) as [->|n]; [|rewrite q_B by assumption; apply Used; assumption]. intros E. destruct (Ext e E) as (A1 & A2 & _). auto.
  - intros y y' e. destruct (Nat.eq_dec y b) as [->|n], (Nat.eq_dec y' b) as [->|n']; [auto|rewrite (q_B y') by assumption|rewrite (q_B y) by assumption|rewrite !q_B by assumption].
    + intros E1 E2. destruct (Ext e E1) as (_ & _ & K). exfalso. apply (K y'); assumption.
    + intros E1 E2. destruct (Ext e E2) as (_ & _ & K). exfalso. apply (K y); assumption.
    + apply I_inj.
  - intros y Hy. assert (n : y <> b) by congruence. rewrite q_B, c_vw by assumption. auto.
  - intros y Hy. rewrite q_s by lia. auto.
  - intros g w E. assert (n : g <> b) by congruence. destruct (I_w g w E) as (A1 & A2 & A3 & A4). rewrite q_B by assumption. csplit; auto.
    destruct (w_taker w) as [t|] eqn:Et.
    + destruct A4 as (m & T1 & T2 & T3 & T4 & T5 & T6 & T7). destruct (l_sched_fw t m T1) as (m' & M1 & M2 & M3 & M4 & M5).
      exists m'. unfold taken. rewrite (q_B g), (c_vw g), l_sops, M3, M4, q_wq by assumption. destruct (Nat.eq_dec t b) as [->|nt].
      * destruct (Takers g w E Et) as (K1 & K2 & K3 & K4). rewrite K2, K3, K4. csplit; auto; try (intros K; contradiction).
        intros Es. destruct (T7 Es) as (_ & S2 & _). contradiction.
      * rewrite (q_B t), l_hold, (Mem t (w_buf w)) by assumption. csplit; auto. intros Es.
        destruct (T7 Es) as (S1 & S2 & S3 & S4 & S5 & S6 & S7 & S8 & S9 & S10). csplit; auto. apply So; assumption.
    + destruct A4 as (T1 & T2 & T3 & T4 & T5 & T6). unfold eager. rewrite q_uns, l_sops, c_vw, q_B by assumption. csplit; auto.
      * apply Fo; assumption.
      * rewrite (Mem g); auto. apply hold_int. assumption.
  - intros t m' g E Eg. destruct (l_sched t m' E) as (m & M1 & M2 & M3 & M4 & M5). rewrite M3 in Eg.
    destruct (I_g t m g M1 Eg) as (A1 & A2 & A3 & A4 & A5). csplit; auto.
    + destruct (Nat.eq_dec t b) as [->|n]; [eauto|rewrite q_B; assumption].
    + destruct (Nat.eq_dec g b) as [->|n]; [eapply Given; eassumption|rewrite q_B; assumption].
    + destruct (Nat.eq_dec g b) as [->|n]; [eapply Given; eassumption|rewrite Fo; assumption].
  - intros y m' k E Ek. destruct (l_sched y m' E) as (m & M1 & M2 & M3 & M4 & M5). rewrite M4 in Ek.
    assert (n : y <> b) by (intros ->; rewrite (Rb m M1) in Ek; discriminate).
    destruct (I_r y m k M1 Ek) as (r & A1 & A2 & A3 & A4 & A5 & A6 & A7 & A8 & A9 & A10).
    exists r. rewrite M3, q_B, c_vw, l_sops, So by assumption. csplit; auto. rewrite (Mem y); auto. apply hold_int. assumption.
  - intros k r K1 K2. destruct (I_k k r K1 K2) as (y & m & K3 & K4). destruct (l_sched_fw y m K3) as (m' & M1 & M2 & M3 & M4 & M5).
    exists y, m'. rewrite M4. auto.
  - intros y y' m m' k E1 K1 E2 K2. destruct (l_sched y m E1) as (m1 & M1 & _ & _ & M4 & _). destruct (l_sched y' m' E2) as (m2 & N1 & _ & _ & N4 & _).
    rewrite M4 in K1. rewrite N4 in K2. eauto.
  - intros y. destruct (Nat.eq_dec y b) as [->|n]; [assumption|rewrite q_B, c_vw; auto].
  - intros y. destruct (Nat.eq_dec y b) as [->|n]; [assumption|rewrite q_B, c_vw; auto].
  - intros y z. destruct (Nat.eq_dec y b) as [->|n]; [auto|]. rewrite c_vw by assumption. intros K1 K2.
    specialize (I_data y z K1 K2). unfold data in *. rewrite q_B by assumption.
    destruct (int (B p y)) as [i|] eqn:Ei; [|destruct I_data; split; auto using l_dsk].
    rewrite (Mem y i n (hold_int _ _ Ei)). destruct (dirty (B p y)); [assumption|].
    destruct I_data as (D1 & D2). split; [auto using l_dsk|]. destruct D2 as [[]|[D2|D2]]; auto. right; right. unfold reading in *. rewrite q_wq, q_rds.
    destruct D2 as [D2|D2]; [left|right; exact D2]. destruct D2 as (m & k & r & R1 & R2). exists m, k, r. rewrite q_s by assumption. auto.
  - intros y. destruct (Nat.eq_dec y b) as [->|n]; [assumption|]. rewrite c_vw by assumption. intros Hy.
    destruct (I_acq y Hy) as (i & K1 & K2). exists i. rewrite q_B, q_disk, (Mem y i n (hold_int _ _ K1)) by assumption. auto.
  - intros y. rewrite l_sops. auto.
  - intros y m' E. destruct (l_sched y m' E) as (m & M1 & M2 & _). rewrite M2. eauto.
  - intros y. destruct (Nat.eq_dec y b) as [->|n]; [rewrite Ev; tauto|]. rewrite Fo, So, q_B by assumption. auto.
  - intros y. destruct (Nat.eq_dec y b) as [->|n].
    + intros K1 K2. specialize (Fk K1). specialize (Sk K2). congruence.
    + rewrite Fo, So by assumption. apply I_dis.
  - intros y. rewrite l_sops. destruct (Nat.eq_dec y b) as [->|n]; [assumption|]. rewrite Fo, q_B by assumption. auto.
  - intros y. rewrite l_sops. destruct (Nat.eq_dec y b) as [->|n]; [assumption|]. rewrite So, q_B by assumption. auto.
  - intros y m E N. destruct (Nat.eq_dec y b) as [->|n]; [auto|]. rewrite q_s in E by assumption. eauto.
  - intros y. rewrite l_sops. destruct (Nat.eq_dec y b) as [->|n]; [assumption|]. rewrite l_hold by assumption. auto.
  - intros y [].
Qed.
End Local.

(** ** operation_done *)

Lemma inv_op_done max Q c p k b : Inv max [] ((k, b) :: Q) c p -> (is_acq k = true -> 1 <= rc (B p b)) -> (is_dei k = true -> int (B p b) = None) ->
  exists q, op_done p b = Ok q /\ Inv max [] Q c q /\ (forall y, sops q y = proj y Q) /\
    (forall y, hold q y = hold p y) /\ base q = base p /\ fe q = fe p /\ se q = se p /\ uns q = uns p /\ pseqn q = pseqn p /\ wq q = wq p.
Proof.
  intros H Ha Hd. pose proof H as H0.
  pose proof (I_ops _ _ _ _ _ H b) as Eo. rewrite proj_cons, Nat.eqb_refl in Eo.
  destruct (sched p b) as [m|] eqn:Em; [|unfold sops in Eo; rewrite Em in Eo; discriminate].
  assert (Eo' : m_ops m = k :: proj b Q) by (unfold sops in Eo; rewrite Em in Eo; exact Eo).
  assert (Ng : forall g, m_giver m = (true, g) -> is_acq k = false /\ proj b Q <> []).
  { intros g Eg. destruct (I_g _ _ _ _ _ H b m g Em Eg) as (K1 & _ & _ & K2 & _).
    destruct (is_acq k) eqn:Ek; [specialize (Ha eq_refl); lia|]. split; [reflexivity|].
    apply prec_tail in K2; [|intros (K & _); congruence]. apply prec_has in K2. intros K. rewrite K in K2. discriminate. }
  assert (Nr : m_res m <> None -> is_acq k = false /\ has_acq (proj b Q) = true).
  { intros N. pose proof (I_res _ _ _ _ _ H b m Em N) as K. rewrite Eo' in K. cbn in K. destruct (is_acq k) eqn:Ek; [|auto].
    exfalso. specialize (Ha eq_refl). rewrite (I_rc _ _ _ _ _ H) in Ha. destruct (I_acq _ _ _ _ _ H b Ha) as (i & K2 & _).
    apply N. apply (I_one _ _ _ _ _ H b m Em). congruence. }
  assert (Nse : In b (se p) -> is_acq k = false /\ is_dei k = false).
  { intros K. destruct (se_facts H b K) as (K1 & _ & i & x & K2 & _). destruct (is_acq k) eqn:Ek; [specialize (Ha eq_refl); lia|].
    destruct (is_dei k) eqn:Ed; [specialize (Hd eq_refl); congruence|auto]. }
  assert (Nn : In b (se p) -> nxt_acq (k :: proj b Q) = true -> nxt_acq (proj b Q) = true).
  { intros K1 K2. destruct (Nse K1) as (K3 & K4). cbn in K2. rewrite K3, K4 in K2. assumption. }
  assert (Nrd : forall r, m_read m = Some r -> nxt_acq (proj b Q) = true).
  { intros r Er. destruct (I_r _ _ _ _ _ H b m r Em Er) as (r' & _ & _ & _ & _ & _ & _ & K & K2 & _). rewrite Eo in K2. auto. }
  set (mq := match proj b Q with [] => None | _ => Some (set_ops m (proj b Q)) end).
  assert (E : op_done p b = Ok (set_sched p (upd (sched p) b mq))).
  { unfold op_done, with_meta. rewrite Em, Eo'. subst mq. destruct (proj b Q) eqn:Ep; [|reflexivity].
    destruct (m_giver m) as (f, g) eqn:Eg. cbn [fst]. destruct f; [|reflexivity].
    destruct (Ng g eq_refl). contradiction. }
  set (q := set_sched p (upd (sched p) b mq)) in *.
  assert (Mq : forall m', mq = Some m' -> m' = set_ops m (proj b Q) /\ proj b Q <> []).
  { intros m' K. subst mq. destruct (proj b Q); [discriminate|]. injection K as <-. split; [reflexivity|discriminate]. }
  assert (Mq' : proj b Q <> [] -> mq = Some (set_ops m (proj b Q))).
  { intros K. subst mq. destruct (proj b Q); [contradiction|reflexivity]. }
  assert (Sn : forall y, y <> b -> sched q y = sched p y) by (intros y n; subst q; usimp; apply upd_other; assumption).
  assert (Sb : sched q b = mq) by (subst q; usimp; apply upd_same).
  assert (Hh : forall y, hold q y = hold p y).
  { intros y. unfold hold. change (base q) with (base p). destruct (Nat.eq_dec y b) as [->|n]; [|rewrite Sn by assumption; reflexivity].
    rewrite Sb, Em. destruct (int (B p b)); [reflexivity|]. destruct mq as [m'|] eqn:K; [destruct (Mq m' eq_refl) as (-> & _); reflexivity|].
    destruct (m_res m) as [i|] eqn:Er; [|reflexivity]. exfalso. destruct Nr as (_ & K2); [discriminate|].
    assert (K3 : proj b Q <> []) by (intros K3; rewrite K3 in K2; discriminate). specialize (Mq' K3). congruence. }
  assert (Oq : forall y, sops q y = proj y Q).
  { intros y. unfold sops. destruct (Nat.eq_dec y b) as [->|n].
    - rewrite Sb. subst mq. destruct (proj b Q); reflexivity.
    - rewrite Sn by assumption. pose proof (I_ops _ _ _ _ _ H y) as K. rewrite proj_cons in K.
      destruct (Nat.eqb_spec b y); [congruence|]. exact K. }
  assert (Op : forall y, y <> b -> sops p y = proj y Q).
  { intros y n. rewrite (I_ops _ _ _ _ _ H y), proj_cons. destruct (Nat.eqb_spec b y); [congruence|reflexivity]. }
  assert (Fw : forall y m0, sched p y = Some m0 -> (y = b -> proj b Q <> []) ->
     exists m', sched q y = Some m' /\ m_res m' = m_res m0 /\ m_giver m' = m_giver m0 /\ m_read m' = m_read m0).
  { intros y m0 K N. destruct (Nat.eq_dec y b) as [->|n].
    - rewrite Em in K. injection K as <-. rewrite Sb, Mq' by auto. eexists. csplit; reflexivity.
    - exists m0. rewrite Sn by assumption. csplit; auto. }
  assert (Bw : forall y m', sched q y = Some m' -> exists m0, sched p y = Some m0 /\ m_res m' = m_res m0 /\ m_giver m' = m_giver m0 /\ m_read m' = m_read m0).
  { intros y m' K. destruct (Nat.eq_dec y b) as [->|n].
    - rewrite Sb in K. destruct (Mq m' K) as (-> & _). exists m. csplit; auto.
    - rewrite Sn in K by assumption. exists m'. csplit; auto. }
  assert (Nx : forall y, In y (se p) -> nxt_acq (sops p y) = true -> nxt_acq (sops q y) = true).
  { intros y K1 K2. rewrite Oq. destruct (Nat.eq_dec y b) as [->|n]; [rewrite Eo in K2; auto|rewrite Op in K2; assumption]. }
  assert (Kp : forall y d, keep d (sops p y) = false -> keep d (sops q y) = false).
  { intros y d. rewrite Oq. destruct (Nat.eq_dec y b) as [->|n]; [rewrite Eo|rewrite Op; auto].
    cbn. destruct k; auto; try (intros; discriminate). destruct d; [intros; discriminate|auto]. }
  exists q. split; [exact E|]. csplit; auto.
  destruct H. constructor; change (base q) with (base p); change (fe q) with (fe p); change (se q) with (se p); change (uns q) with (uns p);
    change (wq q) with (wq p); change (rds q) with (rds p); change (nrd q) with (nrd p); auto.
  - intros j. rewrite (hl_ext _ (hold p) (hold q)) by (intros; apply Hh). apply I_cnt.
  - intros y m' K N. destruct (Bw y m' K) as (m0 & K1 & K2 & _). rewrite K2. eauto.
  - intros y Hy. destruct (I_rng y Hy) as (K1 & K2). split; [|assumption]. rewrite Sn; [assumption|]. intros ->. congruence.
  - intros g w K. destruct (I_w g w K) as (A1 & A2 & A3 & A4). csplit; auto. destruct (w_taker w) as [t|] eqn:Et.
    + destruct A4 as (m0 & T1 & T2 & T3 & T4 & T5 & T6 & T7). destruct (Fw t m0 T1) as (m' & M1 & M2 & M3 & M4).
      { intros ->. rewrite Em in T1. injection T1 as <-. eapply Ng. eassumption. }
      exists m'. unfold taken. rewrite Hh, M3, M4. change (base q) with (base p). csplit; auto.
      intros Es. destruct (T7 Es) as (S1 & S2 & S3 & S4 & S5 & S6 & S7 & S8 & S9 & S10). csplit; auto.
    + destruct A4 as (T1 & T2 & T3 & T4 & T5 & T6). unfold eager. csplit; auto.
  - intros t m' g K Eg. destruct (Bw t m' K) as (m0 & M1 & M2 & M3 & M4). rewrite M3 in Eg.
    destruct (I_g t m0 g M1 Eg) as (A1 & A2 & A3 & A4 & A5). csplit; auto. apply prec_tail in A4; [assumption|].
    intros (K1 & <-). rewrite Em in M1. injection M1 as <-. destruct (Ng g Eg). congruence.
  - intros y m' r K Er. destruct (Bw y m' K) as (m0 & M1 & M2 & M3 & M4). rewrite M4 in Er.
    destruct (I_r y m0 r M1 Er) as (r' & A1 & A2 & A3 & A4 & A5 & A6 & A7 & A8 & A9 & A10). exists r'. rewrite M3. csplit; auto.
  - intros r r' K1 K2. destruct (I_k r r' K1 K2) as (y & m0 & K3 & K4). destruct (Fw y m0 K3) as (m' & M1 & M2 & M3 & M4).
    { intros ->. rewrite Em in K3. injection K3 as <-. specialize (Nrd r K4). intros K. rewrite K in Nrd. discriminate. }
    exists y, m'. rewrite M4. auto.
  - intros y y' m1 m2 r E1 K1 E2 K2. destruct (Bw y m1 E1) as (m3 & M1 & _ & _ & M4). destruct (Bw y' m2 E2) as (m4 & N1 & _ & _ & N4).
    rewrite M4 in K1. rewrite N4 in K2. eauto.
  - intros y x K1 K2. specialize (I_data y x K1 K2). unfold data in *. change (base q) with (base p).
    destruct (int (B p y)); [|exact I_data]. destruct (dirty (B p y)); [exact I_data|]. destruct I_data as (D1 & D2). split; [exact D1|].
    destruct D2 as [[]|[D2|D2]]; auto. right; right. destruct D2 as [(m0 & r & r' & R1 & R2 & R3)|D2]; [left|right; exact D2].
    destruct (Fw y m0 R1) as (m' & M1 & M2 & M3 & M4).
    { intros ->. rewrite Em in R1. injection R1 as <-. specialize (Nrd r R2). intros K. rewrite K in Nrd. discriminate. }
    exists m', r, r'. rewrite M4. auto.
  - intros y m' K. pose proof (Oq y) as K2. unfold sops in K2. rewrite K in K2. destruct (Nat.eq_dec y b) as [->|n].
    + rewrite Sb in K. destruct (Mq m' K) as (_ & K3). congruence.
    + rewrite Sn in K by assumption. eauto.
  - intros y Hy. specialize (I_se y Hy). rewrite Oq. destruct (Nat.eq_dec y b) as [->|n]; [|rewrite Op in I_se; assumption].
    destruct (Nse Hy) as (K1 & K2). rewrite Eo in I_se. cbn in I_se. destruct k; auto; discriminate.
  - intros y m' K N. destruct (Bw y m' K) as (m0 & M1 & M2 & _). rewrite M2 in N. destruct (Nat.eq_dec y b) as [->|n].
    + rewrite Em in M1. injection M1 as <-. rewrite Sb in K. destruct (Mq m' K) as (-> & _). cbn. apply Nr. assumption.
    + rewrite Sn in K by assumption. rewrite M1 in K. injection K as ->. eauto.
  - intros y. rewrite Oq, Hh. intros K. apply I_nores. destruct (Nat.eq_dec y b) as [->|n]; [rewrite Eo; cbn|rewrite Op; assumption].
    unfold has_acq in K. rewrite K. apply orb_true_r.
  - intros y [].
Qed.

(** ** Setting the evictable blocks commutes with waiting *)

Lemma start_read_se p b t l : start_read (set_se p l) b t = bind (start_read p b t) (fun q => Ok (set_se q l)).
Proof.
  unfold start_read, with_meta, bk. usimp. destruct (int (B p b)); [|reflexivity]. destruct (ext (B p b)); [|reflexivity].
  destruct (sched p t); [|reflexivity]. destruct (dirty (B p b)); reflexivity.
Qed.
Lemma do_act_se p a l : do_act (set_se p l) a = bind (do_act p a) (fun q => Ok (set_se q l)).
Proof.
  destruct a; cbn [do_act]; usimp.
  - destruct (wq p b) as [w|]; [|reflexivity]. destruct (w_ph w); reflexivity.
  - destruct (wq p b) as [w|]; [|reflexivity]. destruct (w_ph w); reflexivity.
  - destruct (wq p b) as [w|]; [|reflexivity]. destruct (w_ph w); reflexivity.
  - destruct (wq p b) as [w|]; [|reflexivity]. destruct (w_ph w); try reflexivity. unfold w_over.
    destruct (w_taker w) as [t|]; [|reflexivity]. rewrite start_read_se.
    destruct (start_read p (w_start w) t); reflexivity.
  - destruct (rds p k) as [r|]; [|reflexivity]. destruct (r_done r); reflexivity.
Qed.
Lemma do_acts_se a l : forall p, do_acts (set_se p l) a = bind (do_acts p a) (fun q => Ok (set_se q l)).
Proof.
  induction a as [|x a IH]; intros p; [reflexivity|]. cbn [do_acts]. rewrite do_act_se.
  destruct (do_act p x) as [q| |]; cbn [bind]; auto.
Qed.
Lemma env_se p l : env (set_se p l) = bind (env p) (fun q => Ok (set_se q l)).
Proof. unfold env. usimp. destruct (orc p) as [|x r]; [reflexivity|]. apply (do_acts_se x l (set_orc p r)). Qed.
Lemma wait_id_se p b l : wait_id (set_se p l) b = bind (wait_id p b) (fun q => Ok (set_se q l)).
Proof.
  unfold wait_id, wait_entry, await_w. usimp. destruct (wq p b); [|reflexivity]. rewrite env_se. destruct (env p) as [q| |]; cbn [bind]; auto.
  rewrite do_acts_se. destruct (do_acts q _); reflexivity.
Qed.
Lemma wait_giver_se p t l : wait_giver (set_se p l) t = bind (wait_giver p t) (fun q => Ok (set_se q l)).
Proof.
  unfold wait_giver, with_meta. usimp. destruct (sched p t) as [m|]; [|reflexivity]. destruct (fst (m_giver m)); [|reflexivity].
  rewrite wait_id_se. destruct (wait_id p (snd (m_giver m))) as [q| |]; cbn [bind]; auto. usimp. destruct (sched q t); reflexivity.
Qed.
Lemma wait_on_read_se p t l : wait_on_read (set_se p l) t = bind (wait_on_read p t) (fun q => Ok (set_se q l)).
Proof.
  unfold wait_on_read, with_meta. rewrite wait_giver_se. destruct (wait_giver p t) as [q| |]; cbn [bind]; auto. usimp.
  destruct (sched q t) as [m|]; [|reflexivity]. destruct (m_read m) as [k|]; [|reflexivity]. unfold await_r.
  rewrite env_se. destruct (env q) as [q1| |]; cbn [bind]; auto. rewrite do_act_se. destruct (do_act q1 (RT k)) as [q2| |]; cbn [bind]; auto.
  usimp. destruct (sched q2 t); reflexivity.
Qed.
