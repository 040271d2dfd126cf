(** Scheduling the operations of the sequence: the loop. *)
From Coq Require Import ZArith List Bool Lia Permutation Arith.
From Verif Require Import BsModel BsSpec BsProofs PfModel PfInv PfProofs1 PfProofs2 PfProofs3 PfProofs4 PfProofs5 PfProofs6.
Import ListNotations.

(** ** Writing blocks early *)

Lemma inv_eager max Q c p b s1 e i : Inv max [] Q c p -> uns p = [] -> In b (fe p) -> wq p b = None ->
  int (B p b) = Some i -> dirty (B p b) = true ->
  remaining s1 = remaining (base p) -> nalloc s1 = nalloc (base p) -> free_i s1 = free_i (base p) -> nblk s1 = nblk (base p) ->
  blk s1 = blk (base p) -> free_s s1 = free_s (base p) -> mem s1 = mem (base p) -> disk s1 = disk (base p) ->
  (ext (B p b) = Some e /\ used s1 = used (base p) \/ ext (B p b) = None /\ used s1 = e :: used (base p) /\ ~ In e (used (base p))) ->
  Inv max [] Q c (put_w (set_base p (set_b s1 b (mkSb (Some e) (Some i) false (rc (B p b))))) b (mkW i e Queued false 0 None)).
Proof.
  intros H Hu Hf Wn Ib Db U1 U2 U3 U4 U5 U6 U7 U8 U9. pose proof H as H0.
  destruct (fe_ev H b Hf) as (Rg & Ev). destruct (ev_facts H b Ev) as (C1 & C2 & i' & x & C3 & C4 & C5).
  rewrite Ib in C3. injection C3 as <-. unfold data in C5. rewrite Ib, Db in C5.
  assert (Kb := I_fe _ _ _ _ _ H b Hf). rewrite Db in Kb.
  assert (NS : ~ In b (se p)) by (intros K; apply (I_dis _ _ _ _ _ H b); assumption).
  set (q := put_w _ _ _).
  assert (Bn : forall y, y <> b -> B q y = B p y) by (intros y n; subst q; usimp; rewrite upd_other, U5; auto).
  assert (Bb : B q b = mkSb (Some e) (Some i) false (rc (B p b))) by (subst q; usimp; apply upd_same).
  assert (Bi : forall y, int (B q y) = int (B p y)) by (intros y; destruct (Nat.eq_dec y b) as [->|n]; [rewrite Bb|rewrite Bn]; auto).
  assert (Br : forall y, rc (B q y) = rc (B p y)) by (intros y; destruct (Nat.eq_dec y b) as [->|n]; [rewrite Bb|rewrite Bn]; auto).
  assert (Wo : forall y, y <> b -> wq q y = wq p y) by (intros y n; subst q; usimp; apply upd_other; assumption).
  assert (Wb : wq q b = Some (mkW i e Queued false 0 None)) by (subst q; usimp; apply upd_same).
  assert (Hh : forall y, hold q y = hold p y) by (intros y; unfold hold; rewrite Bi; reflexivity).
  assert (So : forall y, sops q y = sops p y) by reflexivity.
  assert (Be : forall y e', ext (B q y) = Some e' -> ext (B p y) = Some e' \/ (y = b /\ e' = e)).
  { intros y e' E. destruct (Nat.eq_dec y b) as [->|n]; [rewrite Bb in E; injection E as <-; auto|rewrite Bn in E; auto]. }
  assert (D : forall y z, y <> b -> dsk p y z -> dsk q y z).
  { intros y z n (e' & D1 & D2). exists e'. rewrite Bn, Wo by assumption. split; [assumption|].
    change (disk (base q)) with (disk s1). rewrite U8. assumption. }
  assert (NoO : forall d, own c e = Some d -> False).
  { intros d E. destruct U9 as [(F1 & F2)|(F1 & F3 & F4)].
    - destruct (I_used _ _ _ _ _ H b e F1). congruence.
    - destruct (I_own _ _ _ _ _ H e d E). contradiction. }
  assert (Ue : incl (used (base p)) (used s1)).
  { destruct U9 as [(F1 & F2)|(F1 & F3 & F4)]; [rewrite F2|rewrite F3]; intros y; [auto|right; assumption]. }
  assert (Ie : In e (used s1)).
  { destruct U9 as [(F1 & F2)|(F1 & F3 & F4)]; [rewrite F2; eapply I_used; eassumption|rewrite F3; left; reflexivity]. }
  assert (Ue' : forall y, ext (B p y) = Some e -> y = b).
  { intros y E. destruct U9 as [(F1 & F2)|(F1 & F3 & F4)]; [eapply I_inj; eassumption|].
    exfalso. apply F4. eapply I_used; eassumption. }
  destruct H. constructor; change (fe q) with (fe p); change (se q) with (se p); change (uns q) with (uns p);
    change (sched q) with (sched p); change (rds q) with (rds p); change (nrd q) with (nrd p);
    change (free_i (base q)) with (free_i s1); change (remaining (base q)) with (remaining s1); change (nalloc (base q)) with (nalloc s1);
    change (nblk (base q)) with (nblk s1); change (free_s (base q)) with (free_s s1); change (used (base q)) with (used s1);
    change (disk (base q)) with (disk s1); change (mem (base q)) with (mem s1);
    rewrite ?U1, ?U2, ?U3, ?U4, ?U6, ?U7, ?U8; auto; try (intros y; rewrite ?Br, ?Bi, ?So, ?Hh; auto; fail).
  - intros j. rewrite (hl_ext _ (hold p) (hold q)) by (intros; apply Hh). apply I_cnt.
  - intros y m. rewrite Bi. apply I_one.
  - intros y e' E. destruct (Be _ _ E) as [E'|(-> & ->)].
    + destruct (I_used y e' E'). split; [apply Ue; assumption|assumption].
    + split; [assumption|]. destruct (own c e) as [d|] eqn:Eo; [exfalso; eauto|reflexivity].
  - intros y y' e' E1 E2. destruct (Be _ _ E1) as [E1'|(K1 & K1')]; destruct (Be _ _ E2) as [E2'|(K2 & K2')]; subst; eauto.
    symmetry. auto.
  - intros e' d E. destruct (I_own e' d E). split; [apply Ue; assumption|assumption].
  - intros y Hy. destruct (I_new y Hy) as (K1 & K2). split; [|assumption]. rewrite Bn; [assumption|].
    intros ->. rewrite K1 in Ib. discriminate.
  - intros y Hy. destruct (I_rng y Hy) as (K1 & K2). split; [assumption|]. rewrite Wo by lia. assumption.
  - intros h w E. destruct (Nat.eq_dec h b) as [->|n].
    + rewrite Wb in E. injection E as <-. rewrite Bb. cbn [rc dirty ext w_ext w_taker]. csplit; auto.
      unfold eager. rewrite Bi, So. cbn [w_buf]. change (mem (base q)) with (mem s1). rewrite U7. csplit; auto.
      intros z Hz. congruence.
    + rewrite Wo in E by assumption. destruct (I_w h w E) as (A1 & A2 & A3 & A4). rewrite Bn by assumption. csplit; auto.
      destruct (w_taker w) as [t|] eqn:Et.
      * destruct A4 as (m & T1 & T2 & T3 & T4 & T5 & T6 & T7). exists m. unfold taken. rewrite !Bi, Hh, So.
        change (mem (base q)) with (mem s1). rewrite U7. csplit; auto.
        intros Es. destruct (T7 Es) as (S1 & S2 & S3 & S4 & S5 & S6 & S7 & S8 & S9 & S10).
        assert (t <> b) by (intros ->; contradiction). rewrite Wo, Bn by assumption. csplit; auto.
      * destruct A4 as (T1 & T2 & T3 & T4 & T5 & T6). unfold eager. rewrite Bi, So.
        change (mem (base q)) with (mem s1). rewrite U7. csplit; auto.
  - intros t m g E Eg. destruct (I_g t m g E Eg) as (A1 & A2 & A3 & A4 & A5). rewrite !Br. csplit; auto.
    assert (g <> b) by (intros ->; contradiction). intros w. rewrite Wo by assumption. auto.
  - intros y m k E Ek. destruct (I_r y m k E Ek) as (r & A1 & A2 & A3 & A4 & A5 & A6 & A7 & A8 & A9 & A10).
    assert (y <> b) by (intros ->; contradiction). exists r. rewrite Bn, Wo, So by assumption. csplit; auto.
    intros g w Eg Ew. destruct (I_g y m g E Eg) as (_ & _ & K & _).
    assert (g <> b) by (intros ->; contradiction). rewrite Wo in Ew by assumption. eauto.
  - intros y K1 K2. pose proof (I_un y K1 K2) as K. rewrite Bn; [assumption|]. intros ->. rewrite K in Ib. discriminate.
  - intros y z K1 K2. destruct (Nat.eq_dec y b) as [->|n].
    + unfold data. rewrite Bb. cbn [int dirty]. split.
      * exists e. rewrite Bb, Wb. cbn [w_ph]. split; [reflexivity|]. intros N. contradiction.
      * right; left. change (mem (base q)) with (mem s1). rewrite U7. congruence.
    + specialize (I_data y z K1 K2). unfold data in *. rewrite Bn by assumption. change (mem (base q)) with (mem s1). rewrite U7.
      destruct (int (B p y)); [|destruct I_data; split; auto]. destruct (dirty (B p y)); [assumption|].
      destruct I_data as (D1 & D2). split; [auto|]. destruct D2 as [[]|[D2|D2]]; auto. right; right.
      destruct D2 as [D2|(h & w & R1 & R2)]; [left; exact D2|right]. exists h, w. split; [|assumption].
      rewrite Wo; [assumption|]. intros ->. congruence.
  - intros y Hy. specialize (I_acq y Hy). unfold acqd in *. change (mem (base q)) with (mem s1). change (disk (base q)) with (disk s1).
    rewrite Bn, U7, U8; [exact I_acq|]. intros ->. lia.
  - intros y. rewrite I_ev. destruct (Nat.eq_dec y b) as [->|n]; [|rewrite Bn by assumption; reflexivity].
    unfold is_evictable, is_acquired, is_internal. rewrite Br, Bi. reflexivity.
  - intros y Hy. rewrite So. destruct (Nat.eq_dec y b) as [->|n]; [|rewrite Bn by assumption; auto]. rewrite Bb. cbn [dirty]. apply keep_mono. assumption.
  - intros y Hy. rewrite So, Bn; [auto|]. intros ->. contradiction.
  - intros y [].
Qed.

Section Oracles.
Variable pick : nat -> list nat -> nat.
Hypothesis Fresh : fresh_blocks pick.

(** What early writes leave alone. *)
Record ew (p q : pst) : Prop := mkEw {
  ew_fe : fe q = fe p; ew_se : se q = se p; ew_seq : pseqn q = pseqn p; ew_uns : uns q = uns p; ew_sched : sched q = sched p;
  ew_free : free_i (base q) = free_i (base p); ew_rem : remaining (base q) = remaining (base p);
  ew_nblk : nblk (base q) = nblk (base p); ew_int : forall y, int (B q y) = int (B p y)
}.
Lemma ew_refl p : ew p p.
Proof. constructor; auto. Qed.
Lemma ew_trans p q r : ew p q -> ew q r -> ew p r.
Proof. intros [] []. constructor; congruence. Qed.

Lemma inv_write_early max Q c p b : Inv max [] Q c p -> uns p = [] -> In b (fe p) -> wq p b = None ->
  exists q f, schedule_write pick p b = Ok (q, f) /\ Inv max [] Q c q /\ ew p q.
Proof.
  intros H Hu Hf Wn. destruct (ev_facts H b (proj2 (fe_ev H b Hf))) as (C1 & C2 & i & x & C3 & C4 & C5).
  unfold schedule_write, bk. case_eq (dirty (B p b)); intros Ed; cbn [negb].
  2:{ exists p, false. csplit; auto using ew_refl. }
  assert (E : exists s1 e, match ext (B p b) with Some e => (base p, e) | None => new_ext pick (base p) end = (s1, e) /\
    remaining s1 = remaining (base p) /\ nalloc s1 = nalloc (base p) /\ free_i s1 = free_i (base p) /\ nblk s1 = nblk (base p) /\
    blk s1 = blk (base p) /\ free_s s1 = free_s (base p) /\ mem s1 = mem (base p) /\ disk s1 = disk (base p) /\
    (ext (B p b) = Some e /\ used s1 = used (base p) \/ ext (B p b) = None /\ used s1 = e :: used (base p) /\ ~ In e (used (base p)))).
  { destruct (ext (B p b)) as [e|].
    - exists (base p), e. csplit; auto.
    - eexists. eexists. split; [reflexivity|]. usimp. csplit; auto. }
  destruct E as (s1 & e & E & U1 & U2 & U3 & U4 & U5 & U6 & U7 & U8 & U9). rewrite E, C3, Wn.
  eexists. eexists. split; [reflexivity|]. split; [apply inv_eager; auto|].
  constructor; auto. intros y. usimp. unfold upd. destruct (Nat.eqb_spec y b) as [->|n]; [symmetry; assumption|rewrite U5; reflexivity].
Qed.

Lemma inv_write_all max Q c l : forall p, Inv max [] Q c p -> uns p = [] -> incl l (fe p) ->
  exists q, write_all pick p l = Ok q /\ Inv max [] Q c q /\ ew p q.
Proof.
  induction l as [|b l IH]; intros p H Hu Hl; cbn [write_all].
  - exists p. csplit; auto using ew_refl.
  - assert (Hl' : incl l (fe p)) by (intros y Hy; apply Hl; right; assumption).
    destruct (wq p b) as [w|] eqn:Ew; [apply IH; assumption|].
    destruct (inv_write_early _ _ _ _ _ H Hu (Hl b (or_introl eq_refl)) Ew) as (q & f & Q1 & Q2 & Q3).
    rewrite Q1. cbn [bind]. destruct (IH q) as (r & R1 & R2 & R3); auto.
    + rewrite (ew_uns _ _ Q3). assumption.
    + rewrite (ew_fe _ _ Q3). assumption.
    + exists r. csplit; auto. eapply ew_trans; eassumption.
Qed.

(** ** One operation *)

Lemma inv_sched_one max Q c p k b : Inv max [] Q c p -> uns p <> [] -> b < nblk (base p) ->
  exists q go, sched_one pick p k b = Ok (q, go) /\ uns q = uns p /\ pseqn q = pseqn p /\ nblk (base q) = nblk (base p) /\
    (go = true -> Inv max [] (Q ++ [(k, b)]) c q /\ schd c p q k b) /\
    (go = false -> is_acq k = true /\ Inv max [] Q c q /\ budget q = 0 /\ hold q b = None /\ same_blk p q /\
                   (forall y, sops q y = sops p y)).
Proof.
  intros H Hu Hb. unfold sched_one. destruct (Nat.ltb_spec b (nblk (base p))); [cbn [negb]|lia].
  assert (E1 : match sched p b with None => put_meta p b (mkM None (false, 0) None [k])
               | Some m => put_meta p b (set_ops m (m_ops m ++ [k])) end = put_meta p b (push p k b)).
  { unfold push. destruct (sched p b); reflexivity. }
  rewrite E1. clear E1. unfold bk.
  destruct (is_acq k) eqn:Ek.
  - case_eq (is_internal (B p b)); intros Ei.
    + destruct (inv_push_move max Q c p k b H Hu Hb Ei) as (q & Q1 & Q2 & Q3 & Q4 & Q5 & Q6).
      { destruct k; try discriminate; reflexivity. }
      exists q, true. rewrite Q1. csplit; auto; [rewrite Q6; reflexivity|discriminate].
    + assert (Ni : int (B p b) = None) by (unfold is_internal in Ei; destruct (int (B p b)); [discriminate|reflexivity]).
      assert (Rf : refs (vw c b) = 0).
      { destruct (Nat.eq_dec (refs (vw c b)) 0) as [|n]; [assumption|]. destruct (I_acq _ _ _ _ _ H b) as (i & K & _); [lia|congruence]. }
      unfold with_meta at 1. cbn [put_meta set_sched sched]. rewrite upd_same.
      destruct (m_res (push p k b)) as [i|] eqn:Er.
      * assert (Hh : hold p b <> None).
        { unfold push in Er. unfold hold. rewrite Ni. destruct (sched p b); [cbn in Er; congruence|discriminate]. }
        destruct (inv_push_stay max Q c p k b H Hu Hb) as (Q1 & Q2); auto.
        { intros ->. discriminate. }
        eexists. exists true. split; [reflexivity|]. csplit; auto. discriminate.
      * assert (Hh : hold p b = None).
        { unfold push in Er. unfold hold. rewrite Ni. destruct (sched p b); [exact Er|reflexivity]. }
        destruct (inv_reserve pick Fresh max Q c p k b H Hu Hb Ek Hh) as (q & ok & R1 & R2 & R3 & R4 & R5 & R6).
        rewrite R1. cbn [bind]. destruct ok.
        -- destruct (R5 eq_refl) as (I1 & I2 & I3 & I4 & I5 & I6 & I7 & m & M1 & M2 & M3). clear R5 R6.
           unfold with_meta. rewrite M1.
           assert (Mo : m_ops m = sops p b ++ [k]) by (specialize (I3 b); rewrite Nat.eqb_refl in I3; unfold sops at 1 in I3; rewrite M1 in I3; exact I3).
           assert (Base : forall q', fe q' = fe q -> free_i (base q') = free_i (base q) -> remaining (base q') = remaining (base q) ->
             (forall y, sops q' y = sops q y) -> (forall y, y <> b -> is_internal (B q' y) = is_internal (B q y)) ->
             (refs (vw c b) = 0 -> val (vw c b) <> None -> sops p b = [] -> k = op_acquire -> int (B q' b) <> None) -> schd c p q' k b).
           { intros q' F1 F2 F3 F4 F5 F6.
             assert (Bd : budget q' = budget q) by (unfold budget; rewrite F1, F2, F3; reflexivity).
             constructor; auto.
             - lia.
             - intros y. rewrite F4. apply I3.
             - intros y K1 K2. assert (n : y <> b) by (intros ->; contradiction).
               assert (K3 : int (B q y) = None).
               { specialize (F5 y n). unfold is_internal in F5. rewrite K2 in F5. destruct (int (B q y)); [discriminate|reflexivity]. }
               destruct (I5 y K1 K3). csplit; auto. lia.
             - intros _ _ _. lia. }
           destruct (to_read (B q b) (m_ops m)) eqn:Et.
           ++ unfold to_read in Et. apply andb_true_iff in Et. destruct Et as (Et1 & Et2).
              assert (Es : sops p b = []).
              { destruct (sops p b) as [|k0 r] eqn:Es; [reflexivity|]. exfalso. rewrite Mo in Et2. cbn in Et2. destruct k0; try discriminate.
                apply (I_nores _ _ _ _ _ H b); [rewrite Es; reflexivity|assumption]. }
              rewrite Mo, Es in Et2. cbn in Et2. destruct k; try discriminate.
              assert (Ex : ext (B q b) <> None).
              { intros K. unfold sb_initialized, is_internal, is_external, has_external in Et1. rewrite I4, K in Et1. discriminate. }
              destruct (val (vw c b)) as [x|] eqn:Ev.
              2:{ exfalso. pose proof (I_un _ _ _ _ _ H b Rf Ev) as K. rewrite I6, K in Ex. cbn in Ex. contradiction. }
              destruct (m_res m) as [i|] eqn:Mr; [|contradiction].
              destruct (inv_prefetch pick max _ c q b m i x I1 M1 Mr I4 Rf Ev) as (q' & P1 & P2 & P3 & P4 & P5 & P6 & P7 & P8 & P9 & P10 & P11).
              { rewrite I3, Nat.eqb_refl, Es. reflexivity. }
              { right. exact M3. }
              rewrite P1. cbn [bind]. exists q', true. split; [reflexivity|]. csplit; try congruence. intros _. split; [assumption|].
              apply Base; auto.
           ++ exists q, true. split; [reflexivity|]. csplit; auto; [|discriminate]. intros _. split; [assumption|].
              apply Base; auto. intros _ Hv Es ->. exfalso. unfold to_read in Et. rewrite Mo, Es in Et. cbn [app] in Et.
              rewrite andb_true_r in Et. unfold sb_initialized, is_internal, is_external, has_external in Et. rewrite I4 in Et. cbn in Et.
              destruct (val (vw c b)) as [x|] eqn:Ev; [|contradiction].
              pose proof (I_data _ _ _ _ _ H b x Rf Ev) as K. unfold data in K. rewrite Ni in K. destruct K as (K0 & e & K & _).
              rewrite I6, K, I7, K0 in Et. discriminate.
        -- destruct (R6 eq_refl) as (-> & Bu). eexists. exists false. split; [reflexivity|].
           set (q := match sched p b with None => _ | Some _ => _ end).
           assert (Sq : forall y, sched q y = sched p y).
           { intros y. subst q. destruct (sched p b) eqn:Es; cbn [put_meta set_sched sched]; unfold upd;
               destruct (Nat.eqb_spec y b) as [->|n]; auto. }
           assert (Fq : base q = base p /\ fe q = fe p /\ se q = se p /\ uns q = uns p /\ pseqn q = pseqn p /\ rds q = rds p /\ nrd q = nrd p /\ wq q = wq p).
           { subst q. destruct (sched p b); csplit; reflexivity. }
           destruct Fq as (F1 & F2 & F3 & F4 & F5 & F6 & F7 & F8). csplit; auto.
           ++ rewrite F1. reflexivity.
           ++ discriminate.
           ++ intros _. csplit; auto.
              ** apply (inv_peq max [] Q c p); auto. intros y. rewrite F8. reflexivity.
              ** unfold budget. rewrite F1, F2. exact Bu.
              ** unfold hold. rewrite F1, Sq. exact Hh.
              ** intros y. rewrite F1. reflexivity.
              ** intros y. unfold sops. rewrite Sq. reflexivity.
  - assert (St : (k = op_deinitialize -> dirty (B p b) = true -> ~ In b (fe p)) ->
      Inv max [] (Q ++ [(k, b)]) c (put_meta p b (push p k b)) /\ schd c p (put_meta p b (push p k b)) k b).
    { intros Hd. apply inv_push_stay; auto. congruence. }
    destruct k; try discriminate;
      try (destruct St as (S1 & S2); [discriminate|]; eexists; exists true; split; [reflexivity|]; csplit; auto; discriminate).
    case_eq (dirty (B p b)); intros Ed.
    + destruct (has b (fe p)) eqn:Eh.
      * apply has_in in Eh. destruct (ev_facts H b (proj2 (fe_ev H b Eh))) as (_ & _ & i & x & C3 & _).
        destruct (inv_push_move max Q c p op_deinitialize b H Hu Hb) as (q & Q1 & Q2 & Q3 & Q4 & Q5 & Q6).
        { unfold is_internal. rewrite C3. reflexivity. }
        { rewrite Ed. reflexivity. }
        exists q, true. rewrite Q1. csplit; auto; [rewrite Q6; reflexivity|discriminate].
      * destruct St as (S1 & S2); [intros _ _; apply has_not; assumption|].
        assert (Em : move_se (put_meta p b (push p op_deinitialize b)) b = put_meta p b (push p op_deinitialize b)).
        { unfold move_se. cbn [put_meta set_sched fe]. rewrite Eh. reflexivity. }
        rewrite Em. eexists. exists true. split; [reflexivity|]. csplit; auto. discriminate.
    + destruct St as (S1 & S2); [congruence|]. eexists. exists true. split; [reflexivity|]. csplit; auto. discriminate.
Qed.

(** ** The loop *)

Lemma inv_sched_loop max c cur l : forall Q p, Inv max [] Q c p -> uns p = l -> (forall k b, In (k, b) l -> b < nblk (base p)) ->
  rdy c p -> curok c p cur -> (cur <> None -> budget p <= 1) ->
  exists q l1, sched_loop pick l p = Ok q /\ l = l1 ++ uns q /\ Inv max [] (Q ++ l1) c q /\ SC q /\ rdy c q /\ curok c q cur /\
    pseqn q = pseqn p /\ nblk (base q) = nblk (base p) /\ budget q <= budget p.
Proof.
  induction l as [|(k, b) r IH]; intros Q p H Hu Hn Hr Hc Hb; cbn [sched_loop].
  - destruct (inv_write_all max Q c (fe p) p H Hu (incl_refl _)) as (q & Q1 & Q2 & []).
    exists q, []. rewrite app_nil_r. assert (So : forall y, sops q y = sops p y) by (intros; unfold sops; rewrite ew_sched0; reflexivity).
    assert (Bd : budget q = budget p) by (unfold budget; rewrite ew_fe0, ew_free0, ew_rem0; reflexivity).
    csplit; auto.
    + rewrite ew_uns0, Hu. reflexivity.
    + left. congruence.
    + intros y K1 K2. rewrite So, ew_int0. auto.
    + destruct cur as [x|]; [|exact I]. cbn in *. rewrite ew_int0, So, Bd. assumption.
    + lia.
  - assert (Hu' : uns p <> []) by (rewrite Hu; discriminate).
    destruct (inv_sched_one max Q c p k b H Hu' (Hn k b (or_introl eq_refl))) as (p1 & go & S1 & S2 & S3 & S4 & S5 & S6).
    rewrite S1. cbn [bind]. destruct go.
    + destruct (S5 eq_refl) as (I1 & I2). clear S5 S6.
      destruct (IH (Q ++ [(k, b)]) (set_uns p1 r)) as (q & l1 & R1 & R2 & R3 & R4 & R5 & R6 & R7 & R8 & R9).
      * apply inv_uns; [assumption|]. rewrite S2. assumption.
      * reflexivity.
      * intros k' b' K. cbn [set_uns base]. rewrite S4. apply (Hn k'). right; assumption.
      * exact (rdy_schd _ _ _ _ _ Hr I2).
      * exact (cur_schd _ _ _ _ _ _ _ _ H Hc Hb I2).
      * intros K. specialize (Hb K). pose proof (sd_bud _ _ _ _ _ I2). change (budget p1 <= 1). lia.
      * exists q, ((k, b) :: l1). csplit; auto.
        -- cbn [app]. rewrite <- R2. reflexivity.
        -- rewrite <- app_assoc in R3. exact R3.
        -- rewrite R7. exact S3.
        -- rewrite R8. exact S4.
        -- pose proof (sd_bud _ _ _ _ _ I2). change (budget (set_uns p1 r)) with (budget p1) in R9. lia.
    + destruct (S6 eq_refl) as (I1 & I2 & I3 & I4 & I5 & I6). exists p1, []. rewrite app_nil_r. csplit; auto.
      * rewrite S2, Hu. reflexivity.
      * right. split; [assumption|]. exists k, b, r. rewrite S2. auto.
      * intros y K1 K2. rewrite I6, I5. auto.
      * destruct cur as [x|]; [|exact I]. cbn in *. rewrite I5, I6, I3. tauto.
      * lia.
Qed.
End Oracles.
