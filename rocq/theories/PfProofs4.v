(** Scheduling a read. *)
From Coq Require Import ZArith List Bool Lia Permutation Arith.
From Verif Require Import BsModel BsSpec BsProofs PfModel PfInv PfProofs1 PfProofs2 PfProofs3.
Import ListNotations.

Lemma swap_givers_ok p o b mo mb fb gb : sched p o = Some mo -> sched p b = Some mb -> o <> b ->
  m_giver mo = (true, b) -> m_giver mb = (fb, gb) -> (fb = true -> gb <> b) ->
  exists q, swap_givers p o b = Ok q /\ base q = base p /\ fe q = fe p /\ se q = se p /\ uns q = uns p /\
    pseqn q = pseqn p /\ rds q = rds p /\ nrd q = nrd p /\
    sched q o = Some (set_giver mo (fb && isS (wq p gb), gb)) /\
    sched q b = Some (set_giver mb (isS (wq p b), b)) /\
    (forall x, x <> b -> x <> o -> sched q x = sched p x) /\
    wq q b = option_map (fun w => set_taker w (Some b)) (wq p b) /\
    (fb = true -> wq q gb = option_map (fun w => set_taker w (Some o)) (wq p gb)) /\
    (forall x, x <> b -> (fb = true -> x <> gb) -> wq q x = wq p x).
Proof.
  intros Eo Eb N Go Gb Ng. unfold swap_givers, with_meta. rewrite Eo, Eb. usimp.
  rewrite upd_other, Eb by auto. unfold fix_taker, with_meta. usimp.
  rewrite upd_other, upd_same by auto. usimp. rewrite Gb, Go. usimp.
  assert (Nb : b <> o) by auto.
  destruct fb; cbn [andb].
  - destruct (wq p gb) as [wg|] eqn:Wg; cbn [bind]; usimp.
    + rewrite upd_same. usimp. rewrite upd_other by (apply not_eq_sym; auto).
      destruct (wq p b) as [w|] eqn:W; eexists; (split; [reflexivity|]); usimp; cbn [isS option_map]; csplit; auto; usimp.
      all: try (repeat (rewrite upd_other by auto); rewrite upd_same; reflexivity).
      all: try (intros; repeat (rewrite upd_other by auto); auto; fail).
      all: try (rewrite upd_other by (apply not_eq_sym; auto); assumption).
      all: try (intros _; rewrite upd_other by auto; apply upd_same).
      all: try (intros _; apply upd_same).
    + rewrite upd_other, upd_same by auto. usimp.
      destruct (wq p b) as [w|] eqn:W; eexists; (split; [reflexivity|]); usimp; cbn [isS option_map]; csplit; auto; usimp.
      all: try (repeat (rewrite upd_other by auto); rewrite upd_same; reflexivity).
      all: try (intros; repeat (rewrite upd_other by auto); auto; fail).
  - cbn [bind]. usimp. rewrite upd_same. usimp.
    destruct (wq p b) as [w|] eqn:W; eexists; (split; [reflexivity|]); usimp; cbn [isS option_map]; csplit; auto; usimp.
    all: try (repeat (rewrite upd_other by auto); rewrite upd_same; reflexivity).
    all: try (intros; repeat (rewrite upd_other by auto); auto; fail).
    all: try discriminate.
Qed.

Section Oracles.
Variable pick : nat -> list nat -> nat.

Lemma pdetach_ok p b i : is_evictable (B p b) = true -> dirty (B p b) = false -> int (B p b) = Some i ->
  pdetach pick p b = Ok (set_base p (set_b (base p) b (mkSb (ext (B p b)) None false (rc (B p b)))), i).
Proof.
  intros E D I. unfold pdetach, detach, clean. rewrite E. cbn [negb bind]. rewrite D. cbn [negb bind]. rewrite I, D. reflexivity.
Qed.

Lemma inv_try_interrupt max Q c p b o w mb : Inv max [b] Q c p -> wq p b = Some w -> w_shall w = true ->
  w_taker w = Some o -> sched p b = Some mb -> m_read mb = None -> (forall g, m_giver mb = (true, g) -> g <> b) ->
  exists q intr, try_interrupt p b = Ok (q, intr) /\ fr p q /\ same_blk p q /\
    sched q b = Some mb /\ wq q o = None /\
    (forall g wg, g <> b -> wq q g = Some wg -> exists w0, wq p g = Some w0 /\ (wants wg = true -> wants w0 = true)) /\
    (intr = true -> Inv max [o; b] Q c q /\ (forall w, wq q b = Some w -> wants w = false) /\
       (exists mo, sched q o = Some mo /\ m_giver mo = (true, b) /\ m_read mo = None) /\
       (forall x, val (vw c b) = Some x -> exists j, hold p o = Some j /\ mem (base q) j = x)) /\
    (intr = false -> Inv max [b] Q c q /\ wq q b = None).
Proof.
  intros H Ew Es Et Eb Er Gb.
  destruct (I_w _ _ _ _ _ H b w Ew) as (A1 & A2 & A3 & A4). rewrite Et in A4.
  destruct A4 as (mo & T1 & T2 & T3 & T4 & T5 & T6 & T7).
  destruct (T7 ltac:(unfold wants; rewrite Es; reflexivity)) as (S1 & S2 & S3 & S4 & S5 & S6 & S7 & S8 & S9 & S10).
  pose proof (I_lim _ _ _ _ _ H b (or_introl eq_refl)) as Lb.
  assert (H1 : Inv max [o; b] Q c (put_w p b (set_shall w false))).
  { apply (inv_w_change _ [b] [o; b] Q c p b w); auto.
    - intros x [<-|[]]; right; left; reflexivity.
    - intros x [<-|[<-|[]]]; [split; auto|exact Lb].
    - intros t Et' _. assert (t = o) by congruence. subst t. csplit; auto. intros m' Em' Eo'. assert (m' = mo) by congruence. subst m'. auto.
    - congruence.
    - intros _ _ t Et'. left. congruence.
    - intros t Et' _. right. left. congruence. }
  unfold try_interrupt. rewrite Ew.
  destruct (inv_env _ _ _ _ _ H1) as (p1 & P1 & P2 & P3). rewrite P1. cbn [bind].
  assert (E1 : wq (put_w p b (set_shall w false)) b = Some (set_shall w false)) by (usimp; apply upd_same).
  destruct (io_w _ _ _ _ P3 E1) as (w1 & W1 & W2 & W3 & W4 & W5 & W6 & W7). rewrite W1. usimp.
  assert (Em' : sched (put_w p b (set_shall w false)) o = Some mo) by exact T1.
  destruct (io_meta _ _ _ _ P3 Em') as (m1 & M1 & M2 & M3 & M4 & M5).
  assert (F1 : fr p p1) by (eapply fr_trans; [apply put_w_fr|apply io_fr; eassumption]).
  assert (SB1 : same_blk p p1) by (apply io_same in P3; intros b'; apply P3).
  assert (Hwo : wq p1 o = None).
  { eapply io_none; [eassumption|]. usimp. rewrite upd_other; assumption. }
  (* the meta data of [b]: nothing is read *)
  assert (NR : forall q m, Inv max [o; b] Q c q -> sched q b = Some m -> m_ops m = m_ops mb -> m_res m = m_res mb -> m_giver m = m_giver mb ->
            wq q b <> None -> m = mb).
  { intros q0 m Hq Em E_1 E_2 E_3 Ewq. destruct m as [r0 g0 k0 o0], mb as [r1 g1 k1 o1]. cbn in *. subst.
    destruct k0 as [k|]; [|reflexivity]. exfalso.
    destruct (I_r _ _ _ _ _ Hq b _ k Em eq_refl) as (r & _ & _ & _ & _ & _ & K & _). contradiction. }
  assert (Eb1 : sched p1 b = Some mb).
  { assert (Eb' : sched (put_w p b (set_shall w false)) b = Some mb) by exact Eb.
    destruct (io_meta _ _ _ _ P3 Eb') as (m & N1 & N2 & N3 & N4 & N5).
    rewrite N1. f_equal. apply (NR p1); auto. congruence. }
  assert (WF1 : forall g wg, g <> b -> wq p1 g = Some wg -> exists w0, wq p g = Some w0 /\ (wants wg = true -> wants w0 = true)).
  { intros g wg n E. destruct (wq p g) as [w0|] eqn:E0.
    - assert (E0' : wq (put_w p b (set_shall w false)) g = Some w0) by (usimp; rewrite upd_other; assumption).
      destruct (io_w _ _ _ _ P3 E0') as (w2 & V1 & V2 & V3 & V4 & V5 & V6 & V7 & V8). exists w0. split; [reflexivity|].
      rewrite E in V1. injection V1 as <-. assumption.
    - assert (E0' : wq (put_w p b (set_shall w false)) g = None) by (usimp; rewrite upd_other; assumption).
      rewrite (io_none _ _ _ P3 E0') in E. discriminate. }
  assert (MJ : forall m q, Inv max [o; b] Q c q -> sched q o = Some m -> m_read m = None ->
     (exists w, wq q b = Some w /\ w_taker w = Some o /\ w_buf w = w_buf w1) ->
     forall x, val (vw c b) = Some x -> exists j, hold p o = Some j /\ mem (base q) j = x).
  { intros m q0 Hq Em Hm (w2 & V1 & V2 & V3) x Hx. destruct (I_w _ _ _ _ _ Hq b w2 V1) as (_ & _ & _ & K).
    rewrite V2 in K. destruct K as (m' & K1 & K2 & K3 & K4 & _). assert (m' = m) by congruence. subst m'.
    exists (w_buf w2). split; [rewrite V3, W2; exact T3|]. apply K4; assumption. }
  destruct (done_soon w1) eqn:Ed; cbn [negb].
  2:{ exists p1, true. split; [reflexivity|]. csplit; auto; [|discriminate]. intros _.
      assert (Rm : m_read m1 = None).
      { destruct (m_read m1) as [k|] eqn:Ek; [|reflexivity]. exfalso.
        destruct (I_r _ _ _ _ _ P2 o m1 k M1 Ek) as (r & _ & _ & _ & _ & _ & _ & _ & _ & K & _).
        specialize (K b w1). rewrite M3 in K. specialize (K T2 W1). unfold done_soon in Ed. rewrite K in Ed. discriminate. }
      csplit; auto.
      - intros w0 E0. rewrite W1 in E0. injection E0 as <-. unfold wants. rewrite W4. unfold done_soon in Ed. destruct (w_ph w1); [reflexivity..|discriminate|discriminate|discriminate].
      - exists m1. csplit; auto. congruence.
      - apply (MJ m1); auto. exists w1. csplit; auto. congruence. }
  rewrite W6, Et.
  destruct (inv_wait_entry _ _ _ _ _ _ _ P2 W1) as (q & w2 & Q1 & Q2 & Q3 & Q4 & Q5 & Q6). rewrite Q1. cbn [bind].
  destruct (io_meta _ _ _ _ Q4 M1) as (m2 & R1 & R2 & R3 & R4 & R5). unfold with_meta. usimp. rewrite R1.
  assert (Eb2 : sched q b = Some mb).
  { destruct (io_meta _ _ _ _ Q4 Eb1) as (m & N1 & N2 & N3 & N4 & N5).
    rewrite N1. f_equal. apply (NR q); auto. congruence. }
  assert (Hw2 : wq (drop_w q b) o = None).
  { usimp. rewrite upd_other by assumption. eapply io_none; eassumption. }
  eexists. eexists. split; [reflexivity|]. csplit; auto.
  - eapply fr_trans; [eassumption|]. eapply fr_trans; [apply io_fr; eassumption|apply drop_fr].
  - intros x. usimp. etransitivity; [apply (io_same _ _ Q4)|apply SB1].
  - intros g wg n E. usimp. rewrite upd_other in E by assumption. destruct (wq p1 g) as [w0|] eqn:E0.
    + destruct (WF1 g w0 n E0) as (w3 & V1 & V2). exists w3. split; [assumption|].
      destruct (io_w _ _ _ _ Q4 E0) as (w4 & U1 & U2 & U3 & U4 & U5 & U6 & U7 & U8). rewrite E in U1. injection U1 as <-. auto.
    + rewrite (io_none _ _ _ Q4 E0) in E. discriminate.
  - destruct (m_read m2) as [k|] eqn:Ek; [discriminate|]. intros _. csplit; auto.
    + intros w0 E0. usimp. rewrite upd_same in E0. discriminate.
    + exists m2. usimp. csplit; auto. congruence.
    + intros x Hx. destruct (io_w _ _ _ _ Q4 W1) as (w3 & V1 & V2 & V3 & V4 & V5 & V6 & V7).
      destruct (MJ m2 q Q2 R1 Ek) with (x := x) as (j & J1 & J2); auto.
      * exists w3. csplit; auto. congruence.
      * exists j. usimp. auto.
  - destruct (m_read m2) as [k|] eqn:Ek; [|discriminate]. intros _. split; [|usimp; apply upd_same].
    apply (inv_unlim _ [o; b] [b] Q c _ o); auto.
    + intros x [<-|[]]; right; left; reflexivity.
    + intros x [<-|[<-|[]]] n; [contradiction|left; reflexivity].
    + intros i' x' Hi Hx. destruct (I_r _ _ _ _ _ Q3 o m2 k R1 Ek) as (r & B1 & B2 & B3 & B4 & B5 & B6 & B7 & B8 & B9 & B10).
      destruct (r_done r) eqn:Er'.
      * left. rewrite B2 in Hi. injection Hi as <-. auto.
      * right. left. eauto 8.
    + intros g wg E0 Et0. exfalso. destruct (I_w _ _ _ _ _ Q3 g wg E0) as (_ & _ & _ & K). rewrite Et0 in K.
      destruct K as (m' & K1 & K2 & _). usimp. rewrite R1 in K1. injection K1 as <-. rewrite R3, M3, T2 in K2. injection K2 as <-.
      rewrite upd_same in E0. discriminate.
    + intros g wg E0 Et0. exfalso. destruct (I_w _ _ _ _ _ Q3 g wg E0) as (_ & _ & _ & K). rewrite Et0 in K.
      destruct K as (m' & K1 & K2 & _). usimp. rewrite R1 in K1. injection K1 as <-. rewrite R3, M3, T2 in K2. injection K2 as <-.
      rewrite upd_same in E0. discriminate.
Qed.

Lemma same_ev p q x : same_blk p q -> is_evictable (B q x) = is_evictable (B p x).
Proof. intros S. rewrite S. reflexivity. Qed.

Lemma inv_schedule_read max Q c p b m n : Inv max [b] Q c p -> sched p b = Some m -> m_read m = None ->
  (forall g, m_giver m = (true, g) -> g <> b) ->
  (forall g w, m_giver m = (true, g) -> wq p g = Some w -> wants w = false) ->
  exists q, schedule_read pick (S n) p b = Ok q /\ Inv max [] Q c q /\ fr p q.
Proof.
  intros H Em Er Gn Gs.
  pose proof (I_lim _ _ _ _ _ H b (or_introl eq_refl)) as Lb. destruct Lb as (Lb1 & Lb2 & Lb3).
  destruct (se_clean H b Lb1 Lb2) as (i & e & x & C1 & C2 & C3 & C4 & C5 & _).
  destruct (se_ev H b Lb1) as (Lb4 & Lb5).
  destruct (m_giver m) as (fb, gb) eqn:Egb.
  assert (Gn' : fb = true -> gb <> b) by (intros ->; eauto).
  assert (Gs' : fb = true -> forall w, wq p gb = Some w -> wants w = false) by (intros ->; eauto).
  cbn [schedule_read]. destruct (wq p b) as [w|] eqn:Ew.
  2:{ destruct (inv_start_or_after _ [b] [] Q c p b m H) as (q & Q1 & Q2 & Q3 & Q4); auto.
      - left; reflexivity.
      - intros y [].
      - intros y [<-|[]] N; contradiction.
      - exists q. auto. }
  destruct (I_w _ _ _ _ _ H b w Ew) as (A1 & A2 & A3 & A4).
  destruct (w_taker w) as [o|] eqn:Et.
  2:{ exfalso. destruct A4 as (_ & _ & _ & T & _). eapply (I_dis _ _ _ _ _ H); eassumption. }
  destruct A4 as (mo & T1 & T2 & T3 & T4 & T5 & T6 & T7).
  assert (Nob : o <> b). { intros ->. rewrite Em in T1. injection T1 as <-. rewrite T2 in Egb. injection Egb as <- <-. apply Gn'; reflexivity. }
  destruct (w_shall w) eqn:Es.
  - destruct (T7 ltac:(unfold wants; rewrite Es; reflexivity)) as (S1 & S2 & S3 & S4 & S5 & S6 & S7 & S8 & S9 & S10).
    destruct (inv_try_interrupt max Q c p b o w m H Ew Es Et Em Er) as (p1 & intr & P1 & P2 & P3 & P4 & P5 & P5' & P6 & P7).
    { intros g Eg. apply Gn. congruence. }
    rewrite P1. cbn [bind]. destruct intr.
    + destruct (P6 eq_refl) as (H1 & V1 & (m1 & V2 & V3 & V4) & V5). clear P6 P7.
      destruct (se_ev H o S7) as (Lo1 & Lo2).
      destruct (int (B p o)) as [j|] eqn:Ij; [|contradiction].
      destruct (V5 x C4) as (j' & J1 & J2). rewrite (hold_int _ _ Ij) in J1. injection J1 as <-.
      assert (Rm1 : m_res m1 = None).
      { apply (I_one _ _ _ _ _ H1 o); auto. rewrite P3, Ij. discriminate. }
      destruct (swap_givers_ok p1 o b m1 m fb gb V2 P4 Nob V3 Egb Gn') as
        (p2 & U1 & U2 & U3 & U4 & U5 & U6 & U7 & U8 & U9 & U10 & U11 & U12 & U13 & U14).
      rewrite U1. cbn [bind].
      rewrite (pdetach_ok p2 b i); [|rewrite U2, P3; assumption..]. cbn [bind].
      rewrite (pdetach_ok _ o j); [|usimp; rewrite upd_other, U2, P3 by auto; assumption..]. cbn [bind].
      unfold attach at 1. unfold bk at 1 2. usimp. rewrite upd_other, upd_same by auto. unfold is_internal at 1. usimp. cbn [bind].
      unfold attach at 1. unfold bk at 1 2. usimp. rewrite (upd_other _ b) by auto. rewrite upd_same. unfold is_internal at 1. usimp. cbn [bind].
      rewrite !U2. unfold bk. usimp. rewrite ?upd_same, ?U2. rewrite !P3.
      repeat first [rewrite upd_same|rewrite (upd_other _ o) by auto|rewrite (upd_other _ b) by auto]. usimp. rewrite ?P3.
      match goal with |- exists q, schedule_read _ _ ?st _ = _ /\ _ => set (p6 := st) end.
      assert (H6 : Inv max [o] Q c p6).
      { eapply (inv_swap max [o; b] [o] Q c p1 p6 o b i j gb m1 m _ _ fb true); subst p6; usimp; rewrite ?U2; auto.
        - right; left; reflexivity.
        - rewrite P3. assumption.
        - rewrite P3. assumption.
        - intros y Hy. rewrite C4 in Hy. injection Hy as <-. assumption.
        - intros Ef wg Eg. destruct (P5' gb wg (Gn' Ef) Eg) as (w0 & E0 & E0'). destruct (wants wg); [|reflexivity]. rewrite <- (Gs' Ef w0 E0). symmetry. auto.
        - intros y [<-|[]]; left; reflexivity.
        - intros y [<-|[<-|[]]] N; [left; reflexivity|contradiction].
        - intros _. left; reflexivity.
        - rewrite upd_other, upd_same, P3, Lb2 by auto. reflexivity.
        - rewrite upd_same, P3, S5. reflexivity.
        - intros y n1 n2. rewrite !upd_other by auto. reflexivity.
        - rewrite U9. unfold set_giver. rewrite Rm1, V4. reflexivity.
        - rewrite U10. unfold set_giver. rewrite (I_one _ _ _ _ _ H1 b m) by (rewrite ?P3, ?C1; auto; discriminate). rewrite Er. reflexivity. }
      assert (F6 : fr p p6).
      { eapply fr_trans; [eassumption|]. subst p6. constructor; usimp; rewrite ?U2; auto.
        - intros y. unfold sops. usimp. destruct (Nat.eq_dec y b) as [->|n1]; [rewrite U10, P4; reflexivity|].
          destruct (Nat.eq_dec y o) as [->|n2]; [rewrite U9, V2; reflexivity|]. rewrite U11; auto.
        - intros y. unfold is_internal. destruct (Nat.eq_dec y o) as [->|n2]; [rewrite upd_same, P3, Ij; reflexivity|].
          rewrite upd_other by auto. destruct (Nat.eq_dec y b) as [->|n1]; [rewrite upd_same, P3, C1; reflexivity|].
          rewrite !upd_other by auto. reflexivity. }
      assert (W6 : wq p6 o = None).
      { subst p6. usimp. destruct (bool_dec fb true) as [Ef|Ef].
        - destruct (Nat.eq_dec o gb) as [->|n2]; [rewrite (U13 Ef), P5; reflexivity|]. rewrite U14; auto.
        - rewrite U14; auto. }
      assert (W7 : exists m6, sched p6 o = Some m6 /\ m_read m6 = None).
      { subst p6. usimp. rewrite U9. eexists. split; [reflexivity|]. exact V4. }
      destruct W7 as (m6 & W7 & W8). clearbody p6.
      destruct (inv_start_or_after _ [o] [] Q c p6 o m6 H6) as (q & Q1 & Q2 & Q3 & Q4); auto.
      * left; reflexivity.
      * intros y [].
      * intros y [<-|[]] N; contradiction.
      * exists q. split; [|split; [assumption|eapply fr_trans; eassumption]].
        destruct n; cbn [schedule_read]; rewrite W6; assumption.
    + destruct (P7 eq_refl) as (H1 & V1).
      destruct (inv_start_or_after _ [b] [] Q c p1 b m H1) as (q & Q1 & Q2 & Q3 & Q4); auto.
      * left; reflexivity.
      * intros y [].
      * intros y [<-|[]] N; contradiction.
      * exists q. csplit; auto. eapply fr_trans; eassumption.
  - assert (Wn : wants w = false).
    { destruct (wants w) eqn:K; [|reflexivity]. exfalso. destruct (T7 eq_refl) as (S1 & S2 & S3 & S4 & S5 & S6 & S7 & S8 & S9 & S10).
      unfold wants in K. rewrite Es in K. destruct (w_ph w); try discriminate.
      destruct (S10 eq_refl) as [K2|[K2|[]]]; [discriminate|]. apply Nob. symmetry. exact K2. }
    assert (Io : int (B p o) = None).
    { destruct (int (B p o)) as [j|] eqn:Ij; [|reflexivity]. exfalso.
      destruct T6 as [K|[K|[K|[]]]]; [discriminate|congruence|contradiction|congruence]. }
    assert (Ro : m_read mo = None).
    { destruct (m_read mo) as [k|] eqn:Ek; [|reflexivity]. exfalso.
      destruct (I_r _ _ _ _ _ H o mo k T1 Ek) as (r & _ & K & _). congruence. }
    assert (So : m_res mo = Some (w_buf w)). { rewrite <- T3. unfold hold. rewrite Io, T1. reflexivity. }
    destruct (swap_givers_ok p o b mo m fb gb T1 Em Nob T2 Egb Gn') as
      (p2 & U1 & U2 & U3 & U4 & U5 & U6 & U7 & U8 & U9 & U10 & U11 & U12 & U13 & U14).
    rewrite U1. cbn [bind].
    rewrite (pdetach_ok p2 b i); [|rewrite U2; assumption..]. cbn [bind].
    unfold with_meta. usimp. rewrite U9. unfold attach at 1. unfold bk at 1 2. usimp. rewrite upd_same. unfold is_internal at 1. usimp. cbn [bind].
    usimp. rewrite U9. eexists. split; [reflexivity|]. unfold bk. usimp. rewrite upd_same, U2. usimp. rewrite So.
    split.
    + eapply (inv_swap max [b] [] Q c p _ o b i (w_buf w) gb mo m _ _ fb false); usimp; rewrite ?U2; auto.
      * left; reflexivity.
      * intros w0 E0. rewrite Ew in E0. injection E0 as <-. assumption.
      * intros y [].
      * intros y [<-|[]] N; contradiction.
      * discriminate.
      * rewrite upd_same, Lb2. reflexivity.
      * rewrite !upd_other by auto. reflexivity.
      * intros y n1 n2. rewrite !upd_other by auto. reflexivity.
      * rewrite upd_same. unfold set_giver, set_res. usimp. rewrite Ro. reflexivity.
      * rewrite upd_other by auto. rewrite U10. unfold set_giver. rewrite (I_one _ _ _ _ _ H b m) by (auto; congruence). rewrite Er. reflexivity.
      * intros y n1 n2. rewrite upd_other by auto. auto.
    + constructor; usimp; rewrite ?U2; auto.
      * intros y. unfold sops. usimp. destruct (Nat.eq_dec y o) as [->|n2]; [rewrite upd_same, T1; reflexivity|].
        rewrite upd_other by auto. destruct (Nat.eq_dec y b) as [->|n1]; [rewrite U10, Em; reflexivity|]. rewrite U11; auto.
      * intros y. unfold is_internal. destruct (Nat.eq_dec y b) as [->|n1]; [rewrite upd_same, C1; reflexivity|].
        rewrite !upd_other by auto. reflexivity.
Qed.

End Oracles.
