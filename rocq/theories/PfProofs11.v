(** Deinitialize, initialize, and the operations that are not scheduled. *)
From Coq Require Import ZArith List Bool Lia Permutation Arith.
From Verif Require Import BsModel BsSpec BsProofs PfModel PfInv PfProofs1 PfProofs2 PfProofs3 PfProofs4 PfProofs5 PfProofs6 PfProofs7 PfProofs8 PfProofs9 PfProofs10.
Import ListNotations.

Lemma SC_int max Q Q' c c' p q b : Inv max [] Q c p -> Inv max [] Q' c' q -> uns q = uns p -> budget q = budget p ->
  (forall y, sops q y = sops p y) -> (forall y, y <> b -> is_internal (B q y) = is_internal (B p y)) -> hold p b <> None -> SC p -> SC q.
Proof.
  intros H1 H2 E1 E2 E3 E4 E5 [K|(K1 & k & y & r & K2 & K3 & K4)]; [left; congruence|right]. split; [congruence|].
  exists k, y, r. csplit; [congruence|assumption|]. apply (hold_none _ _ _ _ _ _ H2). rewrite E3, E4 by (intros ->; contradiction).
  apply (hold_none _ _ _ _ _ _ H1). assumption.
Qed.

Section Oracles.
Variable pick : nat -> list nat -> nat.
Variable dflt : option Z.
Hypothesis Fresh : fresh_blocks pick.

Lemma inv_pdeinitialize max Q c p0 b r :
  Inv max [] ((op_deinitialize, b) :: Q) c p0 -> SC p0 -> rdy c p0 -> live c b = true -> refs (vw c b) = 0 -> pseqn p0 = (op_deinitialize, b) :: r ->
  (forall k b, In (k, b) (uns p0) -> b < nblk (base p0)) ->
  let c' := set_vw c b v0 in
  exists q l1, pdeinitialize pick p0 b = Ok q /\ uns p0 = l1 ++ uns q /\
    Inv max [] (Q ++ l1) c' q /\ SC q /\ rdy c' q /\ pseqn q = r /\ nblk (base q) = nblk (base p0).
Proof.
  intros H0 S0 R0 Hl Rf Es Hu c'. unfold pdeinitialize. rewrite (next_is_ok _ _ _ _ Es). cbn [bind]. set (k := op_deinitialize) in *.
  set (p := set_seq p0 r). assert (H : Inv max [] ((k, b) :: Q) c p) by (apply inv_seq; assumption).
  assert (S1 : SC p) by exact S0. assert (R1 : rdy c p) by exact R0. clear H0 S0 R0 Es.
  change (uns p0) with (uns p) in *. change (nblk (base p0)) with (nblk (base p)) in *. assert (Ep : pseqn p = r) by reflexivity. clearbody p. clear p0.
  destruct (head_meta _ _ _ _ _ _ H) as (m & Em & Mo & So). rewrite So. cbn [negb]. unfold bk.
  assert (Sm : simu c = false) by apply (I_simu _ _ _ _ _ H).
  assert (Rc : rc (B p b) = 0) by (rewrite (I_rc _ _ _ _ _ H); assumption).
  assert (Eo : sops p b = k :: proj b Q) by (rewrite (I_ops _ _ _ _ _ H), proj_cons, Nat.eqb_refl; reflexivity).
  assert (Hg : forall t mt, sched p t = Some mt -> m_giver mt = (true, b) -> False).
  { intros t mt E1 E2. destruct (I_g _ _ _ _ _ H t mt b E1 E2) as (_ & _ & _ & (Q1 & k1 & Q2 & P1 & P2 & P3) & _).
    destruct Q1 as [|a Q1]; cbn in P1; injection P1 as <- P1; [discriminate|]. destruct (P3 k (or_introl eq_refl)). discriminate. }
  assert (Wb : wq p b = None).
  { destruct (wq p b) as [w|] eqn:E; [|reflexivity]. exfalso. destruct (I_w _ _ _ _ _ H b w E) as (_ & _ & _ & K2).
    destruct (w_taker w) as [t|]; [destruct K2 as (m' & T1 & T2 & _); eauto|]. destruct K2 as (_ & _ & _ & _ & _ & K2).
    rewrite Eo in K2. discriminate. }
  assert (Rd : m_read m = None).
  { destruct (m_read m) as [kk|] eqn:E; [|reflexivity]. exfalso. destruct (I_r _ _ _ _ _ H b m kk Em E) as (rr & _ & _ & _ & _ & _ & _ & _ & K & _).
    rewrite Eo in K. discriminate. }
  assert (Tk : forall g w, wq p g = Some w -> w_taker w = Some b -> int (B p b) = None).
  { intros g w E Et. destruct (int (B p b)) as [i|] eqn:Ei; [|reflexivity]. exfalso. destruct (I_w _ _ _ _ _ H g w E) as (_ & _ & _ & K). rewrite Et in K.
    destruct K as (m0 & T1 & T2 & T3 & T4 & T5 & T6 & T7). destruct T6 as [T6|[T6|[]]]; [congruence| |congruence].
    destruct (T7 T6) as (_ & _ & _ & _ & _ & _ & _ & K & _). rewrite Eo in K. discriminate. }
  unfold with_meta at 1. rewrite Em.
  assert (Sets : exists fe' se', (if is_evictable (B p b)
      then if keep (dirty (B p b)) (m_ops m) then
             if has b (se p) then Ok (set_se p (del b (se p))) else if has b (fe p) then Ok (set_fe p (del b (fe p))) else Undefined
           else if has b (fe p) then Ok (set_fe p (del b (fe p))) else Undefined
      else Ok p) = Ok (set_se (set_fe p fe') se') /\ NoDup fe' /\ NoDup se' /\ ~ In b fe' /\ ~ In b se' /\
      (forall y, y <> b -> (In y fe' <-> In y (fe p))) /\ (forall y, y <> b -> (In y se' <-> In y (se p))) /\ length fe' <= length (fe p) /\
      (int (B p b) = None -> fe' = fe p) /\ (has_acq (proj b Q) = true -> fe' = fe p)).
  { assert (Rg : b < nblk (base p)) by (eapply (sched_rng H); eassumption).
    pose proof (I_fend _ _ _ _ _ H) as N1. pose proof (I_send _ _ _ _ _ H) as N2.
    pose proof (I_ev _ _ _ _ _ H b) as K1. pose proof (I_fe _ _ _ _ _ H b) as K2. pose proof (I_se _ _ _ _ _ H b) as K3. pose proof (I_dis _ _ _ _ _ H b) as K4.
    assert (Es : m_ops m = sops p b) by (unfold sops; rewrite Em; reflexivity). rewrite Es.
    destruct (is_evictable (B p b)) eqn:Ev.
    - assert (Ei : int (B p b) <> None) by (unfold is_evictable, is_internal in Ev; destruct (int (B p b)); [discriminate|rewrite andb_false_r in Ev; discriminate]).
      destruct (keep (dirty (B p b)) (sops p b)) eqn:Ek.
      + assert (Is : In b (se p)) by (destruct (proj2 K1) as [K|K]; auto; discriminate (K2 K)). assert (If : ~ In b (fe p)) by (intros K; auto).
        rewrite (proj2 (has_in b (se p)) Is). exists (fe p), (del b (se p)). csplit; auto using del_nodup.
        * rewrite in_del. tauto.
        * tauto.
        * intros y n. rewrite in_del. tauto.
      + assert (If : In b (fe p)) by (destruct (proj2 K1) as [K|K]; auto; discriminate (K3 K)). assert (Is : ~ In b (se p)) by (intros K; auto).
        rewrite (proj2 (has_in b (fe p)) If). exists (del b (fe p)), (se p). csplit; auto using del_nodup.
        * rewrite in_del. tauto.
        * intros y n. rewrite in_del. tauto.
        * tauto.
        * rewrite (del_length b (fe p)) by assumption. lia.
        * intros K. contradiction.
        * intros K. exfalso. apply keep_no_acq in Ek. rewrite Eo in Ek. change (has_acq (proj b Q) = false) in Ek. congruence.
    - exists (fe p), (se p). rewrite set_fe_se. assert (K : ~ In b (fe p) /\ ~ In b (se p)) by (destruct K1 as (K1 & _); split; intros K; destruct K1; auto; discriminate).
      destruct K. csplit; auto; tauto. }
  destruct Sets as (fe' & se' & E1 & N1 & N2 & N3 & N4 & N5 & N6 & N7 & N8 & N9). rewrite E1. cbn [bind]. clear E1.
  unfold is_acquired at 1. rewrite Rc. cbn [Nat.ltb Nat.leb].
  change (base (set_se (set_fe p fe') se')) with (base p).
  set (s2 := match ext (B p b) with Some e => del_ext (base p) e | None => base p end).
  set (s3 := set_b s2 b (mkSb None None false 0)).
  set (p2 := set_base (set_se (set_fe p fe') se') s3).
  assert (Cs2 : blk s2 = blk (base p) /\ disk s2 = disk (base p) /\ mem s2 = mem (base p) /\ nblk s2 = nblk (base p) /\ free_s s2 = free_s (base p) /\
     free_i s2 = free_i (base p) /\ nalloc s2 = nalloc (base p) /\ remaining s2 = remaining (base p) /\
     (forall e, In e (used s2) <-> In e (used (base p)) /\ ext (B p b) <> Some e)).
  { subst s2. destruct (ext (B p b)) as [e|]; csplit; auto.
    - intros e'. unfold del_ext. usimp. split; intros K; [apply in_remove in K; split; [tauto|intros E; injection E; intuition]|].
      destruct K as (K1 & K2). apply in_in_remove; [congruence|assumption].
    - intros e. split; [intros K; split; [assumption|discriminate]|tauto]. }
  destruct Cs2 as (C1 & C2 & C3 & C4 & C5 & C6 & C7 & C8 & C9).
  assert (Vb : vw c' b = v0) by (subst c'; usimp; cbn [set_vw vw]; apply upd_same).
  assert (Vo : forall y, y <> b -> vw c' y = vw c y) by (intros y n; subst c'; cbn [set_vw vw]; apply upd_other; assumption).
  assert (Gen : forall fr' m', m_ops m' = m_ops m /\ m_giver m' = m_giver m /\ m_read m' = m_read m ->
     (forall j, cnt j fr' + cnt j (opt (m_res m')) = cnt j (free_i (base p)) + cnt j (opt (hold p b))) -> (m_res m' <> None <-> has_acq (proj b Q) = true) ->
     (int (B p b) = None -> m' = m) ->
     Inv max [] ((k, b) :: Q) c' (put_meta (set_base p2 (set_free_i s3 fr')) b m')).
  { intros fr' m' (G1 & G2 & G3) G4 G5 G6. set (q := put_meta (set_base p2 (set_free_i s3 fr')) b m').
    assert (Bb : B q b = sb_new) by (subst q p2 s3; usimp; apply upd_same).
    assert (Hh : hold q b = m_res m') by (unfold hold; rewrite Bb; subst q; usimp; rewrite upd_same; reflexivity).
    apply (inv_local max ((k, b) :: Q) c c' p q b); auto; rewrite ?Bb, ?Hh, ?Vb; subst q p2 s3; usimp; auto.
    - intros y n. rewrite upd_other, C1 by assumption. reflexivity.
    - intros y n. apply upd_other. assumption.
    - rewrite Em. exists m'. rewrite upd_same. csplit; auto. congruence.
    - intros m0 E. rewrite Em in E. injection E as <-. assumption.
    - intros y i n _. rewrite C3. reflexivity.
    - cbn. intros m0 K. contradiction.
    - cbn. discriminate.
    - intros y e n E. destruct (I_used _ _ _ _ _ H y e E) as (A1 & A2). split; [|exact A2]. apply C9. split; [assumption|].
      intros E2. apply n. eapply (I_inj _ _ _ _ _ H); eassumption.
    - intros e d E. change (own c e = Some d) in E. destruct (I_own _ _ _ _ _ H e d E) as (A1 & A2). rewrite C2. split; [|assumption]. apply C9. split; [assumption|].
      intros E2. destruct (I_used _ _ _ _ _ H b e E2). congruence.
    - cbn. discriminate.
    - cbn. lia.
    - intros g w E Et. assert (Ei := Tk g w E Et). csplit; auto.
      + rewrite (G6 Ei). symmetry. apply hold_res; assumption.
      + rewrite C3. reflexivity.
    - cbn. split; [tauto|discriminate].
    - intros K. contradiction.
    - intros m0 E N. rewrite upd_same in E. injection E as <-. rewrite G1, Mo. cbn. apply G5. assumption.
    - rewrite Eo. cbn. apply G5. }
  assert (Ro : forall y, y <> b -> refs (vw c' y) = 0 -> val (vw c' y) <> None -> hd_error (sops p y) = Some op_acquire -> int (B p y) <> None).
  { intros y n. rewrite Vo by assumption. apply R1. }
  assert (B3 : forall y, y <> b -> blk s3 y = B p y) by (intros y n; subst s3; usimp; rewrite upd_other, C1 by assumption; reflexivity).
  assert (B4 : blk s3 b = sb_new) by (subst s3; usimp; apply upd_same).
  assert (Fs : free_i s3 = free_i (base p)) by exact C6. assert (Ns : nblk s3 = nblk (base p)) by exact C4. assert (Rs : remaining s3 = remaining (base p)) by exact C8.
  destruct (int (B p b)) as [i|] eqn:Ei.
  - assert (Hb : hold p b = Some i) by (apply hold_int; assumption).
    assert (Mr : m_res m = None) by (apply (I_one _ _ _ _ _ H b m Em); congruence).
    rewrite Mo. cbn [tl]. rewrite keep_false. destruct (has_acq (proj b Q)) eqn:Ea.
    + unfold with_meta. change (sched p2) with (sched p). rewrite Em. cbn [bind].
      assert (K : Inv max [] ((k, b) :: Q) c' (put_meta p2 b (set_res m (Some i)))).
      { change (Inv max [] ((k, b) :: Q) c' (put_meta (set_base p2 (set_free_i s3 (free_i s3))) b (set_res m (Some i)))). apply Gen; auto.
        - intros j. rewrite Fs, Hb. reflexivity.
        - cbn [set_res m_res]. split; [reflexivity|discriminate].
        - discriminate. }
      destruct (finish max Q c' _ k b K) as (q & F1 & F2 & F3 & F4 & F5 & F6 & F7).
      * discriminate.
      * intros _. subst p2. usimp. rewrite B4. reflexivity.
      * apply (SC_hold p); auto.
        -- unfold budget. subst p2. usimp. rewrite Fs, Rs, (N9 eq_refl). reflexivity.
        -- intros y. unfold hold. subst p2. usimp. destruct (Nat.eq_dec y b) as [->|n]; [rewrite upd_same, B4, Ei; reflexivity|].
           rewrite upd_other, B3 by assumption. reflexivity.
      * intros y n K1 K2 K3. unfold sops in K3. subst p2. usimp. rewrite upd_other in K3 by assumption. rewrite B3 by assumption. apply Ro; auto.
      * rewrite Vb. intros _ K1. contradiction.
      * exists q, []. rewrite app_nil_r, F5, F6, F7. csplit; auto.
    + change (base p2) with s3.
      set (p3 := set_base p2 (return_free s3 i)). 
      assert (K : Inv max [] ((k, b) :: Q) c' p3).
      { assert (K : Inv max [] ((k, b) :: Q) c' (put_meta p3 b m)).
        { apply (Gen (i :: free_i s3) m); auto.
          - intros j. rewrite !cnt_cons, Mr, Hb, Fs. cbn [opt]. rewrite cnt_cons. change (cnt j []) with 0. lia.
          - rewrite Mr. split; [intros K; contradiction|discriminate]. }
        apply (inv_peq _ _ _ _ _ _ K); try reflexivity. intros y. usimp. destruct (Nat.eq_dec y b) as [->|n]; [rewrite upd_same; assumption|rewrite upd_other by assumption; reflexivity]. }
      change (uns p3) with (uns p).
      assert (Ro' : forall y, y <> b -> refs (vw c' y) = 0 -> val (vw c' y) <> None -> hd_error (sops p3 y) = Some op_acquire -> int (B p3 y) <> None).
      { intros y n K1 K2 K3. change (B p3 y) with (blk s3 y). rewrite B3 by assumption. apply Ro; auto. }
      destruct (uns p) as [|u ur] eqn:Eu.
      * cbn [bind]. destruct (finish max Q c' _ k b K) as (q & F1 & F2 & F3 & F4 & F5 & F6 & F7); auto.
        -- discriminate.
        -- intros _. change (B p3 b) with (blk s3 b). rewrite B4. reflexivity.
        -- left. assumption.
        -- rewrite Vb. intros _ K1. contradiction.
        -- exists q, []. rewrite app_nil_r, F5, F6, F7. csplit; auto.
      * destruct (then_next pick Fresh max Q c' p3 k b K) as (q & l1 & F1 & F2 & F3 & F4 & F5 & F6 & F7); auto.
        -- rewrite Vb. auto.
        -- change (uns p3) with (uns p). rewrite Eu. change (nblk (base p3)) with (nblk s3). rewrite Ns. assumption.
        -- right. left. rewrite Vb. reflexivity.
        -- destruct S1 as [K2|(K2 & _)]; [congruence|]. unfold budget in *. subst p3 p2. unfold return_free. usimp. cbn [length]. rewrite Fs, Rs. lia.
        -- exists q, l1. csplit; auto; [rewrite <- F2; symmetry; assumption|rewrite F6; exact Ep|rewrite F7; exact Ns].
  - cbn [bind].
    assert (K : Inv max [] ((k, b) :: Q) c' p2).
    { assert (K : Inv max [] ((k, b) :: Q) c' (put_meta p2 b m)).
      { apply (Gen (free_i s3) m); auto.
        - intros j. rewrite Fs, (hold_res _ _ Em Ei). reflexivity.
        - split; intros K.
          + apply (I_res _ _ _ _ _ H b m Em) in K. rewrite Mo in K. exact K.
          + rewrite <- (hold_res _ _ Em Ei). apply (I_nores _ _ _ _ _ H). rewrite Eo. exact K. }
      apply (inv_peq _ _ _ _ _ _ K); try reflexivity. intros y. usimp. destruct (Nat.eq_dec y b) as [->|n]; [rewrite upd_same; assumption|rewrite upd_other by assumption; reflexivity]. }
    destruct (finish max Q c' _ k b K) as (q & F1 & F2 & F3 & F4 & F5 & F6 & F7).
    + discriminate.
    + intros _. subst p2. usimp. rewrite B4. reflexivity.
    + apply (SC_hold p); auto.
      * unfold budget. subst p2. usimp. rewrite Fs, Rs, (N8 eq_refl). reflexivity.
      * intros y. unfold hold. subst p2. usimp. destruct (Nat.eq_dec y b) as [->|n]; [rewrite B4, Ei; reflexivity|].
        rewrite B3 by assumption. reflexivity.
    + intros y n K1 K2 K3. subst p2. usimp. rewrite B3 by assumption. apply Ro; auto.
    + rewrite Vb. intros _ K1. contradiction.
    + exists q, []. rewrite app_nil_r, F5, F6, F7. csplit; auto.
Qed.

Lemma inv_pinitialize max Q c p0 b e r :
  Inv max [] ((op_initialize, b) :: Q) c p0 -> SC p0 -> rdy c p0 -> legal c (Init b e) -> pseqn p0 = (op_initialize, b) :: r ->
  let c' := after c (Init b e) RNone in
  exists q, pinitialize pick p0 b e = Ok q /\ uns q = uns p0 /\
    Inv max [] Q c' q /\ SC q /\ rdy c' q /\ pseqn q = r /\ nblk (base q) = nblk (base p0).
Proof.
  intros H0 S0 R0 (Hl & Hleg) Es c'. unfold pinitialize. rewrite (next_is_ok _ _ _ _ Es). cbn [bind]. set (k := op_initialize) in *.
  set (p := set_seq p0 r). assert (H : Inv max [] ((k, b) :: Q) c p) by (apply inv_seq; assumption).
  assert (S1 : SC p) by exact S0. assert (R1 : rdy c p) by exact R0. clear H0 S0 R0 Es.
  change (uns p0) with (uns p) in *. change (nblk (base p0)) with (nblk (base p)) in *. assert (Ep : pseqn p = r) by reflexivity. clearbody p. clear p0.
  destruct (head_meta _ _ _ _ _ _ H) as (m & Em & Mo & So). rewrite So. cbn [negb]. unfold bk.
  assert (Sm : simu c = false) by apply (I_simu _ _ _ _ _ H).
  destruct Hleg as [K|(Rf & Hv & Ho)]; [congruence|].
  assert (Bn : B p b = sb_new) by (apply (I_un _ _ _ _ _ H); assumption). rewrite Bn. cbn [sb_initialized is_internal is_external has_external int ext dirty orb andb sb_new rc].
  assert (Eo : sops p b = k :: proj b Q) by (rewrite (I_ops _ _ _ _ _ H), proj_cons, Nat.eqb_refl; reflexivity).
  assert (Wb : wq p b = None).
  { destruct (wq p b) as [w|] eqn:E; [|reflexivity]. exfalso. destruct (I_w _ _ _ _ _ H b w E) as (_ & _ & K & _). rewrite Bn in K. discriminate. }
  assert (Rd : m_read m = None).
  { destruct (m_read m) as [kk|] eqn:E; [|reflexivity]. exfalso. destruct (I_r _ _ _ _ _ H b m kk Em E) as (rr & _ & K & _). rewrite Bn in K. discriminate. }
  set (p1 := set_base p (set_b (base p) b (mkSb e None false 0))).
  assert (Vb : vw c' b = match e with Some e => mkV (own c e) 0 0 false false | None => vw c b end).
  { subst c'. cbn [after]. rewrite Sm. destruct e; [|reflexivity]. cbn [set_own set_vw vw]. apply upd_same. }
  assert (Vo : forall y, y <> b -> vw c' y = vw c y).
  { intros y n. subst c'. cbn [after]. rewrite Sm. destruct e; [|reflexivity]. cbn [set_own set_vw vw]. apply upd_other. assumption. }
  assert (Cc : live c' = live c /\ simu c' = false) by (subst c'; cbn [after]; rewrite Sm; destruct e; csplit; first [reflexivity | exact Sm]).
  destruct Cc as (Cc1 & Cc2).
  assert (Co : forall e', own c' e' = match e with Some e => if Nat.eqb e' e then None else own c e' | None => own c e' end).
  { intros e'. subst c'. cbn [after]. rewrite Sm. destruct e; reflexivity. }
  assert (Hh : hold p1 b = hold p b) by (unfold hold; subst p1; usimp; rewrite upd_same, Bn; reflexivity).
  assert (Bb : B p1 b = mkSb e None false 0) by (subst p1; usimp; apply upd_same).
  assert (H1 : Inv max [] ((k, b) :: Q) c' p1).
  { apply (inv_local max ((k, b) :: Q) c c' p p1 b); auto; rewrite ?Bb, ?Hh; auto.
    - intros y n. subst p1. usimp. apply upd_other. assumption.
    - subst p1. usimp. rewrite Em. exists m. csplit; auto.
    - intros m0 E. rewrite Em in E. injection E as <-. assumption.
    - cbn. intros m0 K. contradiction.
    - cbn [ext]. intros e' E. subst e. rewrite Co, Nat.eqb_refl. destruct (own c e') as [d|] eqn:Eo'; [|contradiction].
      destruct (I_own _ _ _ _ _ H e' d Eo') as (A1 & A2). csplit; auto. intros y n E. destruct (I_used _ _ _ _ _ H y e' E). congruence.
    - intros y e' n E. destruct (I_used _ _ _ _ _ H y e' E) as (A1 & A2). split; [exact A1|]. rewrite Co, A2. destruct e as [e|]; [destruct (Nat.eqb e' e)|]; reflexivity.
    - intros e' d E. rewrite Co in E. apply (I_own _ _ _ _ _ H). destruct e as [e|]; [destruct (Nat.eqb e' e); [discriminate|]|]; assumption.
    - rewrite Vb. destruct e; [reflexivity|]. rewrite Rf. reflexivity.
    - rewrite Vb. destruct e; [|reflexivity]. intros _ K. contradiction.
    - intros x _. rewrite Vb. destruct e as [e|]; [|congruence]. cbn [val]. intros E. unfold data. rewrite Bb. cbn [int dirty]. split; [reflexivity|].
      exists e. rewrite Bb. split; [reflexivity|]. change (wq p1 b) with (wq p b). rewrite Wb. apply (I_own _ _ _ _ _ H). assumption.
    - rewrite Vb. destruct e; [cbn; lia|lia].
    - intros g w E Et. csplit; auto. rewrite Bn. reflexivity.
    - intros t m0 E Eg. split; [reflexivity|]. apply (I_g _ _ _ _ _ H t m0 b E Eg).
    - apply (I_fend _ _ _ _ _ H).
    - apply (I_send _ _ _ _ _ H).
    - reflexivity.
    - reflexivity.
    - cbn. split; [|discriminate]. intros K. change (In b (fe p) \/ In b (se p)) in K. apply (I_ev _ _ _ _ _ H) in K. rewrite Bn in K. destruct K. discriminate.
    - intros K. change (In b (fe p)) in K. apply (I_fe _ _ _ _ _ H) in K. rewrite Bn in K. exact K.
    - intros K. change (In b (se p)) in K. apply (I_se _ _ _ _ _ H) in K. rewrite Bn in K. exact K.
    - intros m0. apply (I_res _ _ _ _ _ H).
    - apply (I_nores _ _ _ _ _ H). }
  assert (Hy : forall y, hold p1 y = hold p y).
  { intros y. destruct (Nat.eq_dec y b) as [->|n]; [assumption|]. unfold hold. subst p1. usimp. rewrite upd_other by assumption. reflexivity. }
  assert (S2 : SC p1) by (apply (SC_hold p); auto).
  assert (Ro : forall y, y <> b -> refs (vw c' y) = 0 -> val (vw c' y) <> None -> hd_error (sops p1 y) = Some op_acquire -> int (B p1 y) <> None).
  { intros y n. rewrite Vo by assumption. subst p1. usimp. rewrite upd_other by assumption. apply R1. }
  unfold with_meta. change (sched p1) with (sched p). rewrite Em, Bb, Mo. cbn [tl].
  destruct (to_read (mkSb e None false 0) (proj b Q)) eqn:Et.
  - unfold to_read in Et. apply andb_true_iff in Et. destruct Et as (Et1 & Et2).
    destruct e as [e|]; [|discriminate]. destruct (proj b Q) as [|k1 l1] eqn:Epj; [discriminate|]. assert (k1 = op_acquire) by (destruct k1; auto; discriminate). subst k1.
    assert (Ah : has_acq (sops p1 b) = true) by (change (sops p1 b) with (sops p b); rewrite Eo; reflexivity).
    pose proof (I_nores _ _ _ _ _ H1 b Ah) as Nh. unfold hold in Nh. rewrite Bb in Nh. cbn [int] in Nh. change (sched p1) with (sched p) in Nh. rewrite Em in Nh.
    destruct (m_res m) as [i|] eqn:Mr; [|contradiction]. destruct (own c e) as [d|] eqn:Eow; [|contradiction].
    destruct (inv_prefetch pick max ((k, b) :: Q) c' p1 b m i d H1 Em Mr) as (q & P1 & P2 & P3 & P4 & P5 & P6 & P7 & P8 & P9 & P10 & P11).
    { rewrite Bb. reflexivity. } { rewrite Vb. reflexivity. } { rewrite Vb. reflexivity. }
    { change (sops p1 b) with (sops p b). rewrite Eo. reflexivity. } { left. exact Wb. }
    rewrite P1. cbn [bind].
    destruct (finish max Q c' q k b P2) as (q' & F1 & F2 & F3 & F4 & F5 & F6 & F7).
    + discriminate.
    + discriminate.
    + apply (SC_int max ((k, b) :: Q) ((k, b) :: Q) c' c' p1 q b); auto.
      * unfold budget. rewrite P3, P6, P7. reflexivity.
      * rewrite Hy, (hold_res _ _ Em); [congruence|]. rewrite Bn. reflexivity.
    + intros y n K1 K2 K3. rewrite P9 in K3. specialize (Ro y n K1 K2 K3). specialize (P11 y n). unfold is_internal in P11.
      destruct (int (B p1 y)); [|contradiction]. destruct (int (B q y)); discriminate.
    + auto.
    + exists q'. rewrite F5, F6, F7. csplit; auto; first [rewrite P5; exact Ep | rewrite P8; reflexivity | rewrite P4; reflexivity].
  - cbn [bind]. destruct (finish max Q c' p1 k b H1) as (q' & F1 & F2 & F3 & F4 & F5 & F6 & F7); auto.
    + discriminate.
    + discriminate.
    + intros _ K2 K3. exfalso. rewrite Vb in K2. destruct e as [e|]; [|contradiction]. unfold to_read in Et.
      destruct (proj b Q) as [|k1 l1]; [discriminate|]. cbn in K3. injection K3 as ->. discriminate.
    + exists q'. rewrite F5, F6, F7. csplit; auto.
Qed.
End Oracles.
