(** Scheduling a read while the block's own write is pending: the buffers are
    swapped. *)
From Coq Require Import ZArith List Bool Lia Permutation Arith.
From Verif Require Import BsModel BsSpec BsProofs PfModel PfInv PfProofs1 PfProofs2.
Import ListNotations.

Definition isS {A} (o : option A) : bool := match o with Some _ => true | None => false end.

Lemma prec_trans o b g Q : prec o b Q -> prec b g Q -> prec o g Q.
Proof.
  intros (Q1 & k & Q2 & E & H & F) (R1 & k' & R2 & E' & H' & F').
  exists Q1, k, Q2. csplit; auto. intros k'' Hk. apply F'.
  assert (K : exists S1, R1 = Q1 ++ S1).
  { clear - E E' F H'. subst Q. revert R1 E' F. induction Q1 as [|x Q1 IH]; intros R1 E F.
    - exists R1. reflexivity.
    - destruct R1 as [|y R1].
      + injection E as -> _. destruct (F k' (or_introl eq_refl)) as (A & _). congruence.
      + injection E as -> E. destruct (IH R1 E) as (S1 & ->); [intros; apply F; right; assumption|].
        exists S1. reflexivity. }
  destruct K as (S1 & ->). apply in_or_app. left. assumption.
Qed.

Lemma prec_self b Q : nxt_acq (proj b Q) = true -> prec b b Q.
Proof.
  induction Q as [|(k, b') Q IH]; [discriminate|]. rewrite proj_cons. destruct (Nat.eqb_spec b' b) as [->|n].
  - cbn. destruct (is_acq k) eqn:Ek.
    + intros _. exists [], k, Q. csplit; auto. contradiction.
    + destruct (is_dei k) eqn:Ed; [discriminate|]. intros H. destruct (IH H) as (Q1 & k1 & Q2 & -> & A & F).
      exists ((k, b) :: Q1), k1, Q2. csplit; auto. intros k' [E|E]; [injection E as <-; auto|auto].
  - intros H. destruct (IH H) as (Q1 & k1 & Q2 & -> & A & F).
    exists ((k, b') :: Q1), k1, Q2. csplit; auto. intros k' [E|E]; [injection E as <-; contradiction|auto].
Qed.

Section Swap.
Variables (max : nat) (L L' : list nat) (Q : list (pop_kind * nat)) (c : client) (p q : pst).
Variables (o b i j gb : nat) (mo mb mo' mb' : meta) (fb att : bool).
Hypothesis H : Inv max L Q c p.
Hypothesis Eo : sched p o = Some mo.
Hypothesis Eb : sched p b = Some mb.
Hypothesis Go : m_giver mo = (true, b).
Hypothesis Gb : m_giver mb = (fb, gb).
Hypothesis Nob : o <> b.
Hypothesis Ngb : fb = true -> gb <> b.
Hypothesis Ro : m_read mo = None.
Hypothesis Rb : m_read mb = None.
Hypothesis Lb : In b L.
Hypothesis Io : int (B p o) = if att then Some j else None.
Hypothesis Ib : int (B p b) = Some i.
Hypothesis So : m_res mo = if att then None else Some j.
Hypothesis Mj : forall x, val (vw c b) = Some x -> mem (base p) j = x.
Hypothesis Wb : forall w, wq p b = Some w -> wants w = false.
Hypothesis Wg : fb = true -> forall w, wq p gb = Some w -> wants w = false.
Hypothesis HL1 : incl L' L.
Hypothesis HL2 : forall x, In x L -> x <> b -> In x L'.
Hypothesis HL3 : att = true -> In o L'.
Hypothesis q_fe : fe q = fe p.
Hypothesis q_se : se q = se p.
Hypothesis q_uns : uns q = uns p.
Hypothesis q_rds : rds q = rds p.
Hypothesis q_nrd : nrd q = nrd p.
Hypothesis q_free : free_i (base q) = free_i (base p).
Hypothesis q_rem : remaining (base q) = remaining (base p).
Hypothesis q_nal : nalloc (base q) = nalloc (base p).
Hypothesis q_nblk : nblk (base q) = nblk (base p).
Hypothesis q_frs : free_s (base q) = free_s (base p).
Hypothesis q_used : used (base q) = used (base p).
Hypothesis q_mem : mem (base q) = mem (base p).
Hypothesis q_disk : disk (base q) = disk (base p).
Hypothesis q_Bb : B q b = mkSb (ext (B p b)) (Some j) (dirty (B p b)) (rc (B p b)).
Hypothesis q_Bo : B q o = if att then mkSb (ext (B p o)) (Some i) (dirty (B p o)) (rc (B p o)) else B p o.
Hypothesis q_B : forall x, x <> b -> x <> o -> B q x = B p x.
Hypothesis q_so : sched q o = Some mo'.
Hypothesis q_sb : sched q b = Some mb'.
Hypothesis q_s : forall x, x <> b -> x <> o -> sched q x = sched p x.
Hypothesis q_mo : mo' = mkM (if att then None else Some i) (fb && isS (wq p gb), gb) None (m_ops mo).
Hypothesis q_mb : mb' = mkM None (isS (wq p b), b) None (m_ops mb).
Hypothesis q_wb : wq q b = option_map (fun w => set_taker w (Some b)) (wq p b).
Hypothesis q_wg : fb = true -> wq q gb = option_map (fun w => set_taker w (Some o)) (wq p gb).
Hypothesis q_w : forall x, x <> b -> (fb = true -> x <> gb) -> wq q x = wq p x.

Lemma q_ext x : ext (B q x) = ext (B p x).
Proof. destruct (Nat.eq_dec x b) as [->|n]; [rewrite q_Bb; reflexivity|]. destruct (Nat.eq_dec x o) as [->|n']; [rewrite q_Bo; destruct att; reflexivity|rewrite q_B; auto]. Qed.
Lemma q_rc x : rc (B q x) = rc (B p x).
Proof. destruct (Nat.eq_dec x b) as [->|n]; [rewrite q_Bb; reflexivity|]. destruct (Nat.eq_dec x o) as [->|n']; [rewrite q_Bo; destruct att; reflexivity|rewrite q_B; auto]. Qed.
Lemma q_dirty x : dirty (B q x) = dirty (B p x).
Proof. destruct (Nat.eq_dec x b) as [->|n]; [rewrite q_Bb; reflexivity|]. destruct (Nat.eq_dec x o) as [->|n']; [rewrite q_Bo; destruct att; reflexivity|rewrite q_B; auto]. Qed.
Lemma q_int x : is_internal (B q x) = is_internal (B p x).
Proof.
  unfold is_internal. destruct (Nat.eq_dec x b) as [->|n]; [rewrite q_Bb, Ib; reflexivity|].
  destruct (Nat.eq_dec x o) as [->|n']; [|rewrite q_B; auto]. rewrite q_Bo, Io. destruct att; [reflexivity|]. rewrite Io. reflexivity.
Qed.
Lemma q_none x : int (B q x) = None <-> int (B p x) = None.
Proof. pose proof (q_int x) as K. unfold is_internal in K. destruct (int (B q x)), (int (B p x)); split; congruence. Qed.
Lemma q_ev x : is_evictable (B q x) = is_evictable (B p x).
Proof. unfold is_evictable, is_acquired. rewrite q_rc, q_int. reflexivity. Qed.
Lemma q_ops x : sops q x = sops p x.
Proof.
  unfold sops. destruct (Nat.eq_dec x b) as [->|n]; [rewrite q_sb, Eb, q_mb; reflexivity|].
  destruct (Nat.eq_dec x o) as [->|n']; [rewrite q_so, Eo, q_mo; reflexivity|rewrite q_s; auto].
Qed.
Lemma p_hold_o : hold p o = Some j.
Proof. unfold hold. rewrite Io, Eo, So. destruct att; reflexivity. Qed.
Lemma p_hold_b : hold p b = Some i.
Proof. unfold hold. rewrite Ib. reflexivity. Qed.
Lemma q_hold_o : hold q o = Some i.
Proof. unfold hold. rewrite q_so, q_Bo, q_mo. destruct att; [reflexivity|]. rewrite Io. reflexivity. Qed.
Lemma q_hold_b : hold q b = Some j.
Proof. unfold hold. rewrite q_Bb. reflexivity. Qed.
Lemma q_hold x : x <> b -> x <> o -> hold q x = hold p x.
Proof. intros n n'. unfold hold. rewrite q_B, q_s by auto. reflexivity. Qed.

(** The requests of [q] and those of [p]. *)
Lemma q_wq x w : wq q x = Some w -> exists w0, wq p x = Some w0 /\
  w_buf w = w_buf w0 /\ w_ext w = w_ext w0 /\ w_ph w = w_ph w0 /\ w_shall w = w_shall w0 /\ w_start w = w_start w0 /\
  ((x = b /\ w_taker w = Some b) \/ (x <> b /\ fb = true /\ x = gb /\ w_taker w = Some o) \/
   (x <> b /\ (fb = true -> x <> gb) /\ w = w0)).
Proof.
  intros E. destruct (Nat.eq_dec x b) as [->|n].
  - rewrite q_wb in E. destruct (wq p b) as [w0|]; [|discriminate]. injection E as <-. exists w0. csplit; auto.
  - destruct (bool_dec fb true) as [Ef|Ef].
    + destruct (Nat.eq_dec x gb) as [->|n'].
      * rewrite (q_wg Ef) in E. destruct (wq p gb) as [w0|]; [|discriminate]. injection E as <-. exists w0. csplit; auto. right; left. auto.
      * rewrite q_w in E by auto. exists w. csplit; auto 6.
    + rewrite q_w in E by (auto; intros; contradiction). exists w. csplit; auto. right; right. csplit; auto; intros; contradiction.
Qed.
Lemma q_wnone x : wq p x = None -> wq q x = None.
Proof. intros E. destruct (wq q x) as [w|] eqn:Eq; [|reflexivity]. destruct (q_wq _ _ Eq) as (w0 & K & _). congruence. Qed.
Lemma q_wfwd x w0 : wq p x = Some w0 -> exists w, wq q x = Some w /\ w_ph w = w_ph w0.
Proof.
  intros E. destruct (Nat.eq_dec x b) as [->|n].
  - rewrite q_wb, E. eexists. split; reflexivity.
  - destruct (bool_dec fb true) as [Ef|Ef].
    + destruct (Nat.eq_dec x gb) as [->|n'].
      * rewrite (q_wg Ef), E. eexists. split; reflexivity.
      * rewrite q_w by auto. eauto.
    + rewrite q_w by (auto; intros; contradiction). eauto.
Qed.
Lemma q_dsk x y : dsk p x y -> dsk q x y.
Proof.
  intros (e & D1 & D2). exists e. rewrite q_ext, q_disk. split; [exact D1|].
  destruct (wq q x) as [w|] eqn:Eq.
  - destruct (q_wq _ _ Eq) as (w0 & K & _ & _ & K2 & _). rewrite K in D2. rewrite K2. exact D2.
  - destruct (wq p x) as [w0|] eqn:Ep; [|exact D2]. destruct (q_wfwd _ _ Ep) as (w & K & _). congruence.
Qed.
(** No pending write has [o] or [b] as its taker except those of [b] and [gb]. *)
Lemma tk_o x w : wq p x = Some w -> w_taker w = Some o -> x = b.
Proof.
  intros E Et. destruct (I_w _ _ _ _ _ H x w E) as (_ & _ & _ & K). rewrite Et in K.
  destruct K as (m & K1 & K2 & _). rewrite Eo in K1. injection K1 as <-. congruence.
Qed.
Lemma tk_b x w : wq p x = Some w -> w_taker w = Some b -> fb = true /\ x = gb.
Proof.
  intros E Et. destruct (I_w _ _ _ _ _ H x w E) as (_ & _ & _ & K). rewrite Et in K.
  destruct K as (m & K1 & K2 & _). rewrite Eb in K1. injection K1 as <-. rewrite Gb in K2. injection K2 as -> ->. auto.
Qed.

Lemma inv_swap : Inv max L' Q c q.
Proof.
  pose proof H as H0.
  assert (Lb1 := I_lim _ _ _ _ _ H b Lb). destruct Lb1 as (Lb1 & Lb2 & Lb3).
  destruct (I_g _ _ _ _ _ H o mo b Eo Go) as (Go1 & Go2 & Go3 & Go4 & Go5).
  assert (Ob : o < nblk (base p)) by (eapply (sched_rng H); eassumption).
  assert (Bb : b < nblk (base p)) by (eapply (sched_rng H); eassumption).
  destruct H. constructor; rewrite ?q_fe, ?q_se, ?q_uns, ?q_rds, ?q_nrd, ?q_free, ?q_rem, ?q_nal, ?q_nblk, ?q_frs, ?q_used, ?q_mem, ?q_disk; auto.
  - intros i'. rewrite (hl_swap _ (hold p) (hold q) b o); auto; [apply q_hold| |].
    + rewrite q_hold_b, p_hold_o. reflexivity.
    + rewrite q_hold_o, p_hold_b. reflexivity.
  - intros x m Em N. destruct (Nat.eq_dec x b) as [->|n]; [rewrite q_sb, q_mb in Em; injection Em as <-; reflexivity|].
    destruct (Nat.eq_dec x o) as [->|n'].
    + rewrite q_so, q_mo in Em. injection Em as <-. rewrite q_none in N. rewrite Io in N. cbn [m_res m_giver m_read m_ops ext int dirty rc fst snd]. destruct att; [reflexivity|congruence].
    + rewrite q_s in Em by auto. rewrite q_none in N. eauto.
  - intros x e. rewrite q_ext. eauto.
  - intros x x' e. rewrite !q_ext. eauto.
  - intros x Hx. destruct (I_new x Hx) as (K1 & K2). split; [|exact K2].
    assert (x <> b) by (intros ->; rewrite K1 in Ib; discriminate).
    destruct (Nat.eq_dec x o) as [->|n]; [|rewrite q_B; auto].
    rewrite K1 in Io. rewrite q_Bo. destruct att; [discriminate|exact K1].
  - intros x Hx. destruct (I_rng x Hx) as (K1 & K2). split; [|apply q_wnone; assumption].
    rewrite q_s; [assumption| |]; intros ->; lia.
  - (* I_w *)
    intros x w E. destruct (q_wq x w E) as (w0 & E0 & W1 & W2 & W3 & W4 & W5 & W6).
    destruct (I_w x w0 E0) as (A1 & A2 & A3 & A4). rewrite q_rc, q_dirty, q_ext, W2. csplit; auto.
    destruct W6 as [(-> & Et)|[(n & Ef & -> & Et)|(n & n' & ->)]].
    + (* own *)
      rewrite Et. pose proof (Go5 w0 E0) as T. rewrite T in A4. destruct A4 as (m & T1 & T2 & T3 & T4 & T5 & T6 & T7).
      rewrite p_hold_o in T3. injection T3 as T3.
      exists mb'. unfold taken. rewrite W1, <- T3, q_mem, q_hold_b, q_mb, E0. cbn [m_res m_giver m_read m_ops ext int dirty rc fst snd]. cbn [isS]. csplit; auto.
      * rewrite q_sb, q_mb, E0. reflexivity.
      * rewrite (wants_eq _ _ W3 W4), (Wb w0 E0). discriminate.
    + (* of the giver *)
      rewrite Et. assert (Eg : m_giver mb = (true, gb)) by (rewrite Gb, Ef; reflexivity).
      destruct (I_g b mb gb Eb Eg) as (G1 & G2 & G3 & G4 & G5).
      pose proof (G5 w0 E0) as T. rewrite T in A4. destruct A4 as (m & T1 & T2 & T3 & T4 & T5 & T6 & T7).
      rewrite Eb in T1. injection T1 as <-. rewrite p_hold_b in T3. injection T3 as T3.
      exists mo'. unfold taken. rewrite W1, <- T3, q_mem, q_hold_o, q_mo, Ef, E0. cbn [m_res m_giver m_read m_ops ext int dirty rc fst snd]. cbn [isS andb]. csplit; auto.
      * rewrite q_so, q_mo, Ef, E0. reflexivity.
      * intros _. rewrite T3. auto.
      * destruct (Nat.eq_dec gb o) as [->|n']; [auto|]. destruct T5 as [T5|[T5|T5]].
        -- left. apply q_none. assumption.
        -- congruence.
        -- right; right. auto.
      * intros N. right; right. apply HL3. apply not_false_is_true. intros Ea. apply N. apply q_none. rewrite Io, Ea. reflexivity.
      * rewrite (wants_eq _ _ W3 W4), (Wg Ef w0 E0). discriminate.
    + destruct (w_taker w0) as [t|] eqn:Ew.
      * destruct A4 as (m & T1 & T2 & T3 & T4 & T5 & T6 & T7).
        assert (Nto : t <> o) by (intros ->; apply n; eapply tk_o; eassumption).
        assert (Ntb : t <> b).
        { intros ->. destruct (tk_b _ _ E0 Ew) as (K1 & K2). apply n'; assumption. }
        exists m. unfold taken. rewrite q_s, q_hold, q_mem, q_ops, q_se, q_ext, q_dirty by auto. csplit; auto.
        -- destruct T5 as [T5|[T5|T5]]; auto. left. apply q_none. assumption.
        -- intros N. rewrite q_none in N. destruct (T6 N) as [T|[T|T]]; auto.
        -- intros Es. destruct (T7 Es) as (S1 & S2 & S3 & S4 & S5 & S6 & S7 & S8 & S9 & S10). csplit; auto.
           ++ rewrite q_none. assumption.
           ++ apply q_wnone. assumption.
           ++ intros N. destruct (S10 N); auto.
      * destruct A4 as (T1 & T2 & T3 & T4 & T5 & T6). unfold eager. rewrite q_mem, q_ops, q_fe, q_uns. csplit; auto.
        destruct (Nat.eq_dec x o) as [->|n2]; [|rewrite q_B by auto; assumption]. exfalso.
        assert (K : has_acq (sops p o) = true) by (rewrite I_ops; eapply prec_has; eassumption).
        rewrite (has_acq_keep true) in T6 by assumption. discriminate.
  - (* I_g *)
    intros t m g Em Eg. rewrite !q_rc. destruct (Nat.eq_dec t b) as [->|n].
    + rewrite q_sb, q_mb in Em. injection Em as <-. cbn [m_giver] in Eg. injection Eg as Eg <-.
      destruct (wq p b) as [w0|] eqn:E0; [|discriminate]. csplit; auto.
      * apply prec_self. rewrite <- I_ops. assumption.
      * intros w E. rewrite q_wb in E. cbn in E. injection E as <-. reflexivity.
    + destruct (Nat.eq_dec t o) as [->|n'].
      * rewrite q_so, q_mo in Em. injection Em as <-. cbn [m_giver] in Eg. injection Eg as Eg <-.
        apply andb_true_iff in Eg. destruct Eg as (Ef & Es).
        assert (Eg : m_giver mb = (true, gb)) by (rewrite Gb, Ef; reflexivity).
        destruct (I_g b mb gb Eb Eg) as (G1 & G2 & G3 & G4 & G5). csplit; auto.
        -- eapply prec_trans; eassumption.
        -- intros w E. rewrite (q_wg Ef) in E. destruct (wq p gb); [|discriminate]. injection E as <-. reflexivity.
      * rewrite q_s in Em by auto. destruct (I_g t m g Em Eg) as (A1 & A2 & A3 & A4 & A5). csplit; auto.
        intros w E. destruct (q_wq _ _ E) as (w0 & E0 & _ & _ & _ & _ & _ & W6). pose proof (A5 w0 E0) as T.
        destruct W6 as [(-> & _)|[(k & Ef & -> & _)|(_ & _ & ->)]]; auto.
        -- rewrite (Go5 w0 E0) in T. congruence.
        -- assert (Eg' : m_giver mb = (true, gb)) by (rewrite Gb, Ef; reflexivity).
           destruct (I_g b mb gb Eb Eg') as (_ & _ & _ & _ & G5). rewrite (G5 w0 E0) in T. congruence.
  - (* I_r *)
    intros x m k Em Ek. destruct (Nat.eq_dec x b) as [->|n].
    { rewrite q_sb, q_mb in Em. injection Em as <-. discriminate. }
    destruct (Nat.eq_dec x o) as [->|n'].
    { rewrite q_so, q_mo in Em. injection Em as <-. discriminate. }
    rewrite q_s in Em by auto. destruct (I_r x m k Em Ek) as (r & A1 & A2 & A3 & A4 & A5 & A6 & A7 & A8 & A9 & A10).
    exists r. rewrite q_B, q_ops by auto. csplit; auto.
    + apply q_wnone. assumption.
    + intros g w Eg E. destruct (q_wq _ _ E) as (w0 & E0 & _ & _ & W3 & _). rewrite W3. eauto.
  - intros k r E D. destruct (I_k k r E D) as (x & m & K1 & K2). exists x, m. split; [|assumption].
    rewrite q_s; [assumption| |]; intros ->; congruence.
  - intros x x' m m' k E1 K1 E2 K2.
    assert (K : forall x m, sched q x = Some m -> m_read m = Some k -> sched p x = Some m).
    { intros y my Ey Ky. rewrite <- q_s; [assumption| |]; intros ->.
      - rewrite q_sb, q_mb in Ey. injection Ey as <-. discriminate.
      - rewrite q_so, q_mo in Ey. injection Ey as <-. discriminate. }
    eauto.
  - intros x. rewrite q_rc. auto.
  - intros x K1 K2. pose proof (I_un x K1 K2) as K. destruct (Nat.eq_dec x b) as [->|n].
    + rewrite K in Ib. discriminate.
    + destruct (Nat.eq_dec x o) as [->|n']; [|rewrite q_B; auto].
      rewrite K in Io. rewrite q_Bo. destruct att; [discriminate|assumption].
  - (* I_data *)
    intros x y K1 K2. pose proof (I_data x y K1 K2) as D. unfold data in *. rewrite q_dirty, q_mem.
    destruct (Nat.eq_dec x b) as [->|n].
    + rewrite q_Bb. cbn [m_res m_giver m_read m_ops ext int dirty rc fst snd]. rewrite Lb2. rewrite Ib, Lb2 in D. destruct D as (D1 & D2). split; [apply q_dsk; assumption|]. auto.
    + destruct (Nat.eq_dec x o) as [->|n'].
      * revert D. rewrite Io, q_Bo. case_eq att; intros Ea D; cbn [m_res m_giver m_read m_ops ext int dirty rc fst snd].
        -- destruct (I_lim o (HL1 _ (HL3 Ea))) as (_ & Hd & _). rewrite Hd in D |- *. destruct D as (D1 & D2).
           split; [apply q_dsk; assumption|]. auto.
        -- rewrite Io, Ea. destruct D as (D1 & D2). split; [assumption|]. apply q_dsk; assumption.
      * rewrite q_B by auto. destruct (int (B p x)) as [i'|]; [|destruct D; split; [assumption|apply q_dsk; assumption]].
        destruct (dirty (B p x)); [assumption|]. destruct D as (D1 & D2). split; [apply q_dsk; assumption|].
        destruct D2 as [D2|[D2|D2]]; auto. right; right. destruct D2 as [(m & k & r & R1 & R2 & R3 & R4)|(g & w & R1 & R2 & R3 & R4)].
        -- left. exists m, k, r. rewrite q_s, q_rds by auto. auto.
        -- right. exists g, w. csplit; auto. rewrite q_w; [assumption| |].
           ++ intros ->. rewrite (Wb w R1) in R2. discriminate.
           ++ intros Ef ->. rewrite (Wg Ef w R1) in R2. discriminate.
  - intros x Hx. pose proof (I_acq x Hx) as (i' & A1 & A2 & A3 & A4 & A5 & A6).
    assert (n : x <> b). { intros ->. rewrite <- I_rc in Hx. lia. }
    assert (n' : x <> o). { intros ->. rewrite <- I_rc in Hx. lia. }
    exists i'. rewrite q_B, q_mem, q_disk by auto. csplit; auto.
  - intros x. rewrite q_ops. auto.
  - intros x m Em. destruct (Nat.eq_dec x b) as [->|n]; [rewrite q_sb, q_mb in Em; injection Em as <-; cbn [m_res m_giver m_read m_ops ext int dirty rc fst snd]; eauto|].
    destruct (Nat.eq_dec x o) as [->|n']; [rewrite q_so, q_mo in Em; injection Em as <-; cbn [m_res m_giver m_read m_ops ext int dirty rc fst snd]; eauto|]. rewrite q_s in Em by auto. eauto.
  - intros x. rewrite q_ev. auto.
  - intros x. rewrite q_dirty, q_ops. auto.
  - intros x. rewrite q_dirty, q_ops. auto.
  - intros x m Em N. destruct (Nat.eq_dec x b) as [->|n]; [rewrite q_sb, q_mb in Em; injection Em as <-; contradiction|].
    destruct (Nat.eq_dec x o) as [->|n']; [|rewrite q_s in Em by auto; eauto].
    rewrite q_so, q_mo in Em. injection Em as <-. cbn [m_res m_giver m_read m_ops ext int dirty rc fst snd]. assert (K : has_acq (sops p o) = true) by (rewrite I_ops; eapply prec_has; eassumption).
    unfold sops in K. rewrite Eo in K. exact K.
  - intros x. rewrite q_ops. intros Hx. destruct (Nat.eq_dec x b) as [->|n]; [rewrite q_hold_b; discriminate|].
    destruct (Nat.eq_dec x o) as [->|n']; [rewrite q_hold_o; discriminate|]. rewrite q_hold; auto.
  - intros x Hx. rewrite q_dirty, q_ops. auto.
Qed.
End Swap.
