(** Release. *)
From Coq Require Import ZArith List Bool Lia Permutation Arith.
From Verif Require Import BsModel BsSpec BsProofs PfModel PfInv PfProofs1 PfProofs2 PfProofs3 PfProofs4 PfProofs5 PfProofs6 PfProofs7 PfProofs8 PfProofs9.
Import ListNotations.

(** Changing a quiet block, without its external block. *)
Section Quiet.
Variables (max : nat) (Q : list (pop_kind * nat)) (c c' : client) (p q : pst) (b : nat) (m m' : meta).
Hypothesis H : Inv max [] Q c p.
Hypothesis Hlive : live c b = true.
Hypothesis Hq : quiet p b.
Hypothesis Em : sched p b = Some m.
Hypothesis q_B : forall y, y <> b -> B q y = B p y.
Hypothesis q_s : forall y, y <> b -> sched q y = sched p y.
Hypothesis q_sb : sched q b = Some m'.
Hypothesis q_m : m_ops m' = m_ops m /\ m_giver m' = m_giver m /\ m_read m' = m_read m.
Hypothesis q_wq : wq q = wq p.
Hypothesis q_rds : rds q = rds p.
Hypothesis q_nrd : nrd q = nrd p.
Hypothesis q_uns : uns q = uns p.
Hypothesis q_nblk : nblk (base q) = nblk (base p).
Hypothesis q_frs : free_s (base q) = free_s (base p).
Hypothesis q_disk : disk (base q) = disk (base p).
Hypothesis q_nal : nalloc (base q) = nalloc (base p).
Hypothesis q_rem : remaining (base q) = remaining (base p).
Hypothesis q_used : used (base q) = used (base p).
Hypothesis q_mem : mem (base q) = mem (base p).
Hypothesis q_ext : ext (B q b) = ext (B p b).
Hypothesis Cnt : forall j, cnt j (free_i (base q)) + cnt j (opt (hold q b)) = cnt j (free_i (base p)) + cnt j (opt (hold p b)).
Hypothesis One : int (B q b) <> None -> m_res m' = None.
Hypothesis c_live : live c' = live c.
Hypothesis c_own : own c' = own c.
Hypothesis c_vw : forall y, y <> b -> vw c' y = vw c y.
Hypothesis c_simu : simu c' = simu c.
Hypothesis Rc : rc (B q b) = refs (vw c' b).
Hypothesis Un : refs (vw c' b) = 0 -> val (vw c' b) = None -> B q b = sb_new.
Hypothesis Data : forall x, refs (vw c' b) = 0 -> val (vw c' b) = Some x -> data [] q b x.
Hypothesis Acq' : 1 <= refs (vw c' b) -> acqd q b (vw c' b).
Hypothesis Fnd : NoDup (fe q).
Hypothesis Snd : NoDup (se q).
Hypothesis Fo : forall y, y <> b -> (In y (fe q) <-> In y (fe p)).
Hypothesis So : forall y, y <> b -> (In y (se q) <-> In y (se p)).
Hypothesis Ev : In b (fe q) \/ In b (se q) <-> is_evictable (B q b) = true.
Hypothesis Fk : In b (fe q) -> keep (dirty (B q b)) (sops p b) = false.
Hypothesis Sk : In b (se q) -> keep (dirty (B q b)) (sops p b) = true.
Hypothesis Res : m_res m' <> None -> has_acq (m_ops m) = true.
Hypothesis Nores : has_acq (sops p b) = true -> hold q b <> None.

Lemma inv_quiet : Inv max [] Q c' q.
Proof.
  destruct Hq as (Q1 & Q2 & Q3). destruct (Q2 m Em) as (Rd & Gv). destruct q_m as (M2 & M3 & M4).
  assert (Gn : forall g, m_giver m = (true, g) -> False) by (intros g E; rewrite E in Gv; discriminate).
  apply (inv_local max Q c c' p q b); auto; rewrite ?c_own, ?q_used, ?q_disk, ?q_mem, ?q_sb, ?q_ext; auto.
  - rewrite Em. exists m'. csplit; auto. congruence.
  - intros m0 E. rewrite Em in E. injection E as <-. assumption.
  - intros m0 K E. injection E as <-. auto.
  - intros e E. destruct (I_used _ _ _ _ _ H b e E) as (A1 & A2). csplit; auto. intros y n E2. apply n. eapply (I_inj _ _ _ _ _ H); eassumption.
  - intros y e n E. apply (I_used _ _ _ _ _ H y). assumption.
  - intros e d E. apply (I_own _ _ _ _ _ H). assumption.
  - rewrite c_simu. apply (I_simu _ _ _ _ _ H).
  - intros g w E Et. exfalso. destruct (I_w _ _ _ _ _ H g w E) as (_ & _ & _ & K). rewrite Et in K. destruct K as (m0 & T1 & T2 & _).
    rewrite Em in T1. injection T1 as <-. eauto.
  - intros m0 g E Eg. rewrite Em in E. injection E as <-. exfalso. eauto.
  - intros t m0 E Eg. exfalso. eauto.
  - intros m0 E N. injection E as <-. rewrite M2. auto.
Qed.
End Quiet.

Definition noext (l : list pop_kind) : Prop := ~ In op_extract_external_block l.
Lemma noext_clean l : noext l -> to_clean l = false.
Proof.
  induction l as [|k l IH]; [reflexivity|]. intros N. assert (N2 : noext l) by (intros K; apply N; right; assumption).
  destruct k; cbn; auto. exfalso. apply N. left. reflexivity.
Qed.

Section Oracles.
Variable pick : nat -> list nat -> nat.
Hypothesis Fresh : fresh_blocks pick.

(** Scheduling more, and finishing the operation. *)
Lemma then_next max Q c p k b : Inv max [] ((k, b) :: Q) c p -> is_acq k = false -> (is_dei k = true -> refs (vw c b) = 0 /\ val (vw c b) = None) ->
  (forall k b, In (k, b) (uns p) -> b < nblk (base p)) ->
  (forall y, y <> b -> refs (vw c y) = 0 -> val (vw c y) <> None -> hd_error (sops p y) = Some op_acquire -> int (B p y) <> None) ->
  curok c p (Some b) -> budget p <= 1 ->
  exists q l1, bind (sched_next pick p) (fun p2 => op_done p2 b) = Ok q /\ uns p = l1 ++ uns q /\ Inv max [] (Q ++ l1) c q /\ SC q /\ rdy c q /\
    pseqn q = pseqn p /\ nblk (base q) = nblk (base p).
Proof.
  intros H Hk Hd Hu Hr Hc Hb.
  assert (R : rdy c p).
  { intros y K1 K2 K3. destruct (Nat.eq_dec y b) as [->|n]; [|auto].
    rewrite (I_ops _ _ _ _ _ H), proj_cons, Nat.eqb_refl in K3. cbn in K3. injection K3 as ->. discriminate. }
  destruct (inv_sched_loop pick Fresh max c (Some b) (uns p) _ p H eq_refl Hu R Hc (fun _ => Hb)) as (q & l1 & L1 & L2 & L3 & L4 & L5 & L6 & L7 & L8 & L9).
  unfold sched_next. rewrite L1. cbn [bind].
  destruct (finish max (Q ++ l1) c q k b L3) as (q' & F1 & F2 & F3 & F4 & F5 & F6 & F7); auto.
  - intros K. congruence.
  - intros K. destruct (Hd K) as (K1 & K2). rewrite (I_un _ _ _ _ _ L3 b K1 K2). reflexivity.
  - intros K1 K2 K3. destruct L6 as [K|[K|(_ & K)]]; [assumption|contradiction|]. exfalso.
    rewrite (I_ops _ _ _ _ _ L3) in K. cbn [app] in K. rewrite proj_cons, Nat.eqb_refl in K. cbn in K. rewrite Hk in K. cbn in K.
    destruct (proj b (Q ++ l1)) as [|k' l]; [discriminate|]. cbn in K3. injection K3 as ->. discriminate.
  - exists q', l1. rewrite F5, F6, F7. csplit; auto.
Qed.

Lemma then_write max Q c p k b : Inv max [] ((k, b) :: Q) c p -> is_acq k = false -> is_dei k = false -> uns p = [] -> In b (fe p) -> wq p b = None ->
  (forall y, y <> b -> refs (vw c y) = 0 -> val (vw c y) <> None -> hd_error (sops p y) = Some op_acquire -> int (B p y) <> None) ->
  int (B p b) <> None ->
  exists q, bind (bind (schedule_write pick p b) (fun '(p3, _) => Ok p3)) (fun p2 => op_done p2 b) = Ok q /\ uns q = [] /\ Inv max [] Q c q /\ SC q /\ rdy c q /\
    pseqn q = pseqn p /\ nblk (base q) = nblk (base p).
Proof.
  intros H Hk Hd Hu Hf Hw Hr Hi. destruct (inv_write_early pick Fresh max _ c p b H Hu Hf Hw) as (q & f & W1 & W2 & W3).
  rewrite W1. cbn [bind]. destruct W3.
  destruct (finish max Q c q k b W2) as (q' & F1 & F2 & F3 & F4 & F5 & F6 & F7); auto; try congruence.
  - left. congruence.
  - intros y n K1 K2. unfold sops. rewrite ew_sched, ew_int. apply Hr; assumption.
  - exists q'. rewrite F5, F6, F7. csplit; auto; congruence.
Qed.

Lemma inv_prelease max Q c p0 b (d : bool) r :
  let k := if d then op_release_dirty else op_release in
  Inv max [] ((k, b) :: Q) c p0 -> SC p0 -> rdy c p0 -> legal c (Rel b d) -> pseqn p0 = (k, b) :: r ->
  (forall k b, In (k, b) (uns p0) -> b < nblk (base p0)) -> noext (proj b Q) ->
  let c' := after c (Rel b d) RNone in
  exists q l1, prelease pick p0 b d = Ok q /\ uns p0 = l1 ++ uns q /\
    Inv max [] (Q ++ l1) c' q /\ SC q /\ rdy c' q /\ pseqn q = r /\ nblk (base q) = nblk (base p0).
Proof.
  intros k H0 S0 R0 (Hl & Hleg) Es Hu Hne c'. unfold prelease. fold k. rewrite (next_is_ok _ _ _ _ Es). cbn [bind].
  assert (Hk : is_acq k = false) by (subst k; destruct d; reflexivity).
  assert (Hkd : is_dei k = false) by (subst k; destruct d; reflexivity).
  set (p := set_seq p0 r). assert (H : Inv max [] ((k, b) :: Q) c p) by (apply inv_seq; assumption).
  assert (S1 : SC p) by exact S0. assert (R1 : rdy c p) by exact R0. clear H0 S0 R0 Es.
  change (uns p0) with (uns p) in *. change (nblk (base p0)) with (nblk (base p)) in *. assert (Ep : pseqn p = r) by reflexivity. clearbody p. clear p0.
  destruct (head_meta _ _ _ _ _ _ H) as (m & Em & Mo & So). rewrite So. cbn [negb].
  assert (Sm : simu c = false) by apply (I_simu _ _ _ _ _ H).
  destruct Hleg as [K|(Rf & Hleg)]; [congruence|].
  assert (Rc : rc (B p b) = refs (vw c b)) by apply (I_rc _ _ _ _ _ H).
  pose proof (quiet_acq _ _ _ _ _ _ H (eq_ind_r (fun x => 1 <= x) Rf Rc)) as Hq.
  pose proof (I_acq _ _ _ _ _ H b Rf) as (i & A1 & A2 & A3 & A4 & A5 & A6).
  unfold bk. unfold is_acquired at 1. rewrite Rc. replace (Nat.ltb 0 (refs (vw c b))) with true by (symmetry; apply Nat.ltb_lt; lia). cbn [negb].
  cbv zeta.
  set (B1 := mkSb (ext (B p b)) (int (B p b)) (d || dirty (B p b)) (refs (vw c b) - 1)).
  set (p1 := set_base p (set_b (base p) b B1)).
  unfold with_meta at 1. change (sched p1) with (sched p). rewrite Em.
  assert (Tl : tl (m_ops m) = proj b Q) by (rewrite Mo; reflexivity). rewrite Tl.
  assert (Kh : forall x, keep x (sops p b) = keep x (proj b Q)).
  { intros x. rewrite (I_ops _ _ _ _ _ H), proj_cons, Nat.eqb_refl. subst k. destruct d; reflexivity. }
  assert (Ah : has_acq (sops p b) = has_acq (proj b Q)) by (rewrite <- !keep_false; apply Kh).
  assert (Vo : forall y, y <> b -> vw c' y = vw c y).
  { intros y n. subst c'. cbn [after]. rewrite Sm. cbn [set_vw vw]. apply upd_other. assumption. }
  assert (Cc : live c' = live c /\ own c' = own c /\ simu c' = simu c) by (subst c'; cbn [after]; rewrite Sm; csplit; first [reflexivity | exact Sm]).
  destruct Cc as (Cc1 & Cc2 & Cc3).
  assert (Mr : m_res m = None) by (apply (I_one _ _ _ _ _ H b m Em); congruence).
  assert (Ev0 : is_evictable (B p b) = false).
  { unfold is_evictable, is_acquired. rewrite Rc. replace (Nat.ltb 0 (refs (vw c b))) with true by (symmetry; apply Nat.ltb_lt; lia). reflexivity. }
  assert (Nin : ~ In b (fe p) /\ ~ In b (se p)).
  { split; intros K; [assert (K2 : In b (fe p) \/ In b (se p)) by auto|assert (K2 : In b (fe p) \/ In b (se p)) by auto];
    apply (I_ev _ _ _ _ _ H) in K2; destruct K2; congruence. }
  destruct Nin as (Nf & Ns).
  assert (Hb : hold p b = Some i) by (apply hold_int; assumption).
  assert (Ro : forall y, y <> b -> refs (vw c' y) = 0 -> val (vw c' y) <> None -> hd_error (sops p y) = Some op_acquire -> int (B p y) <> None).
  { intros y n. rewrite Vo by assumption. apply R1. }
  destruct (Nat.eq_dec (refs (vw c b)) 1) as [E1|N1].
  - (* the last reference *)
    assert (Vb : vw c' b = mkV (if d || drt (vw c b) then Some (work (vw c b)) else val (vw c b)) 0 (work (vw c b)) false false).
    { subst c'. cbn [after]. rewrite Sm. cbn [set_vw vw]. rewrite upd_same, E1. reflexivity. }
    assert (Ia : is_acquired B1 = false) by (subst B1; unfold is_acquired; cbn [rc]; rewrite E1; reflexivity). rewrite Ia.
    assert (Ev : is_evictable B1 = true) by (unfold is_evictable; rewrite Ia; subst B1; unfold is_internal; cbn [int]; rewrite A1; reflexivity).
    specialize (Hleg E1).
    case_eq (dirty B1 || is_external B1)%bool; intros Ede.
    + (* it keeps its value *)
      assert (Vs : val (vw c' b) <> None).
      { rewrite Vb. cbn [val]. destruct (d || drt (vw c b))%bool eqn:Ed; [discriminate|]. apply orb_false_iff in Ed. destruct Ed as (-> & Ed).
        subst B1. unfold is_external in Ede. cbn [dirty ext orb] in Ede. destruct (dirty (B p b)) eqn:Edd.
        - destruct A4 as [K|K]; auto. congruence.
        - rewrite A5 by reflexivity. destruct (ext (B p b)); [discriminate|discriminate]. }
      assert (Da : forall fe' se' x, val (vw c' b) = Some x -> data [] (set_se (set_fe p1 fe') se') b x).
      { intros fe' se' x. rewrite Vb. cbn [val]. intros K. unfold data, dsk. subst p1. usimp. rewrite upd_same. subst B1. cbn [int dirty ext]. rewrite A1.
        destruct Hq as (Q1 & _). rewrite Q1. destruct d; cbn [orb] in *; [congruence|]. destruct (dirty (B p b)) eqn:Edd.
        - destruct (drt (vw c b)) eqn:Edr; [congruence|]. destruct A4 as [K2|K2]; auto; [discriminate|].
          destruct Hleg as [Hg|[Hg|[Hg|Hg]]]; try congruence. rewrite (A6 K2 Hg) in K. congruence.
        - destruct (drt (vw c b)) eqn:Edr; [discriminate A3; auto|]. rewrite (A5 eq_refl) in *.
          destruct (ext (B p b)) as [e|]; [|discriminate]. cbn [option_map] in *. split; [exists e; split; congruence|]. right; left.
          destruct Hleg as [Hg|[Hg|[Hg|Hg]]]; try congruence. assert (K2 : Some (disk (base p) e) <> None) by discriminate. specialize (A6 K2 Hg). congruence. }
      assert (Gen : forall fe' se', NoDup fe' -> NoDup se' -> (forall y, y <> b -> (In y fe' <-> In y (fe p))) -> (forall y, y <> b -> (In y se' <-> In y (se p))) ->
        (In b fe' \/ In b se') -> (In b fe' -> keep (dirty B1) (sops p b) = false) -> (In b se' -> keep (dirty B1) (sops p b) = true) ->
        Inv max [] ((k, b) :: Q) c' (set_se (set_fe p1 fe') se')).
      { intros fe' se' G1 G2 G3 G4 G5 G6 G7.
        assert (Hh : hold (set_se (set_fe p1 fe') se') b = Some i) by (apply hold_int; subst p1; usimp; rewrite upd_same; exact A1).
        apply (inv_quiet max ((k, b) :: Q) c c' p (set_se (set_fe p1 fe') se') b m m); auto; rewrite ?Hh, ?Hb; subst p1; usimp; rewrite ?upd_same; auto.
        - intros y n. apply upd_other. assumption.
        - rewrite Vb. subst B1. cbn [rc refs]. lia.
        - intros _ K. contradiction.
        - rewrite Vb. cbn [refs]. lia.
        - tauto.
        - discriminate. }
      destruct (keep (dirty B1) (proj b Q)) eqn:Ek.
      * rewrite (noext_clean _ Hne). cbn [bind].
        assert (K : Inv max [] ((k, b) :: Q) c' (set_se (set_fe p1 (fe p)) (ins b (se p)))).
        { apply Gen; try (rewrite Kh; auto).
          - apply (I_fend _ _ _ _ _ H).
          - apply ins_nodup, (I_send _ _ _ _ _ H).
          - tauto.
          - intros y n. rewrite in_ins. tauto.
          - right. apply in_ins. auto.
          - intros K. contradiction. }
        change (set_se (set_fe p1 (fe p)) (ins b (se p))) with (set_se p1 (ins b (se p1))) in K.
        destruct (finish max Q c' _ k b K) as (q & F1 & F2 & F3 & F4 & F5 & F6 & F7); try congruence.
        -- apply (SC_hold p); auto; try reflexivity. intros y. unfold hold. subst p1. usimp. destruct (Nat.eq_dec y b) as [->|n]; [rewrite upd_same|rewrite upd_other by assumption]; reflexivity.
        -- intros y n K1 K2 K3. subst p1. usimp. rewrite upd_other by assumption. apply Ro; auto.
        -- intros _ _ _. subst p1. usimp. rewrite upd_same. subst B1. cbn [int]. congruence.
        -- exists q, []. rewrite app_nil_r, F5, F6, F7. csplit; auto.
      * assert (K : Inv max [] ((k, b) :: Q) c' (set_se (set_fe p1 (ins b (fe p))) (se p))).
        { apply Gen; try (rewrite Kh; auto).
          - apply ins_nodup, (I_fend _ _ _ _ _ H).
          - apply (I_send _ _ _ _ _ H).
          - intros y n. rewrite in_ins. tauto.
          - tauto.
          - left. apply in_ins. auto. }
        change (set_se (set_fe p1 (ins b (fe p))) (se p)) with (set_fe p1 (ins b (fe p1))) in K.
        change (uns (set_fe p1 (ins b (fe p1)))) with (uns p). change (wq (set_fe p1 (ins b (fe p1)))) with (wq p).
        assert (Ib : int (B (set_fe p1 (ins b (fe p1))) b) <> None) by (subst p1; usimp; rewrite upd_same; subst B1; cbn [int]; congruence).
        assert (Ro' : forall y, y <> b -> refs (vw c' y) = 0 -> val (vw c' y) <> None -> hd_error (sops (set_fe p1 (ins b (fe p1))) y) = Some op_acquire ->
                      int (B (set_fe p1 (ins b (fe p1))) y) <> None).
        { intros y n K1 K2 K3. subst p1. usimp. rewrite upd_other by assumption. apply Ro; auto. }
        destruct (uns p) as [|u ur] eqn:Eu.
        -- destruct Hq as (Q1 & _). rewrite Q1.
           destruct (then_write max Q c' (set_fe p1 (ins b (fe p1))) k b K) as (q & F1 & F2 & F3 & F4 & F5 & F6 & F7); auto.
           { usimp. apply in_ins. auto. }
           exists q, []. rewrite app_nil_r. csplit; auto. rewrite F6. exact Ep.
        -- destruct (then_next max Q c' (set_fe p1 (ins b (fe p1))) k b K) as (q & l1 & F1 & F2 & F3 & F4 & F5 & F6 & F7); auto.
           { intros K2. congruence. }
           { subst p1. usimp. rewrite Eu. assumption. }
           { left. assumption. }
           { destruct S1 as [K2|(K2 & _)]; [congruence|]. unfold budget in *. subst p1. usimp. unfold ins. rewrite (proj2 (has_not b (fe p)) Nf). cbn [length]. lia. }
           exists q, l1. csplit; auto; [rewrite <- F2; symmetry; assumption|rewrite F6; exact Ep].
    + (* it never got one *)
      apply orb_false_iff in Ede. destruct Ede as (Ed1 & Ee1). subst B1. unfold is_external, has_external in Ee1. cbn [dirty ext] in Ed1, Ee1.
      rewrite Ed1 in Ee1. cbn [negb] in Ee1. rewrite andb_true_r in Ee1.
      apply orb_false_iff in Ed1. destruct Ed1 as (-> & Ed1). destruct (ext (B p b)) as [e|] eqn:Ee; [discriminate|].
      assert (Edr : drt (vw c b) = false) by (destruct (drt (vw c b)); [specialize (A3 eq_refl); congruence|reflexivity]).
      assert (Vb' : vw c' b = mkV None 0 (work (vw c b)) false false) by (rewrite Vb, Edr, (A5 Ed1); reflexivity).
      rewrite Ed1 in *. cbn [orb] in *. rewrite (pdetach_ok pick p1 b i); [|subst p1; usimp; rewrite upd_same; assumption|subst p1; usimp; rewrite upd_same; exact Ed1|subst p1; usimp; rewrite upd_same; assumption].
      cbn [bind]. rewrite keep_false. subst p1. usimp. rewrite upd_same. cbn [ext rc]. rewrite E1. cbn [Nat.sub].
      match goal with |- context [set_base (set_base p ?a) ?x] => change (set_base (set_base p a) x) with (set_base p x); set (s2 := x) end.
      assert (Gen : forall fr' m', m_ops m' = m_ops m /\ m_giver m' = m_giver m /\ m_read m' = m_read m ->
        (forall j, cnt j fr' + cnt j (opt (m_res m')) = cnt j (free_i (base p)) + cnt j [i]) -> (m_res m' <> None <-> has_acq (proj b Q) = true) ->
        Inv max [] ((k, b) :: Q) c' (put_meta (set_base p (set_free_i s2 fr')) b m')).
      { intros fr' m' G1 G2 G3.
        assert (Hh : hold (put_meta (set_base p (set_free_i s2 fr')) b m') b = m_res m') by (unfold hold; subst s2; usimp; rewrite !upd_same; reflexivity).
        apply (inv_quiet max ((k, b) :: Q) c c' p (put_meta (set_base p (set_free_i s2 fr')) b m') b m m'); auto; rewrite ?Hh, ?Hb; subst s2; usimp; rewrite ?upd_same; auto.
        - intros y n. rewrite !upd_other by assumption. reflexivity.
        - intros y n. apply upd_other. assumption.
        - cbn [int]. intros K. contradiction.
        - rewrite Vb'. reflexivity.
        - intros x _. rewrite Vb'. discriminate.
        - rewrite Vb'. cbn [refs]. lia.
        - apply (I_fend _ _ _ _ _ H).
        - apply (I_send _ _ _ _ _ H).
        - tauto.
        - tauto.
        - unfold is_evictable, is_internal. cbn. split; [tauto|discriminate].
        - intros K. contradiction.
        - intros K. apply G3 in K. rewrite <- Ah in K. unfold sops in K. rewrite Em in K. assumption.
        - rewrite Ah. apply G3. }
      destruct (has_acq (proj b Q)) eqn:Ea.
      * unfold with_meta. change (sched (set_base p s2)) with (sched p). rewrite Em. cbn [bind].
        assert (K : Inv max [] ((k, b) :: Q) c' (put_meta (set_base p s2) b (set_res m (Some i)))).
        { change s2 with (set_free_i s2 (free_i (base p))). apply Gen; auto. cbn [set_res m_res]. split; [reflexivity|discriminate]. }
        destruct (finish max Q c' _ k b K) as (q & F1 & F2 & F3 & F4 & F5 & F6 & F7); try congruence.
        -- apply (SC_hold p); auto; try reflexivity. intros y. unfold hold. subst s2. usimp.
           destruct (Nat.eq_dec y b) as [->|n]; [rewrite !upd_same|rewrite !upd_other by assumption; reflexivity]. cbn [int set_res m_res]. rewrite A1. reflexivity.
        -- intros y n K1 K2 K3. unfold sops in K3. subst s2. usimp. rewrite upd_other in K3 by assumption. rewrite !upd_other by assumption. apply Ro; auto.
        -- intros _ K1 _. rewrite Vb' in K1. contradiction.
        -- exists q, []. rewrite app_nil_r, F5, F6, F7. csplit; auto.
      * assert (K : Inv max [] ((k, b) :: Q) c' (set_base p (return_free s2 i))).
        { assert (K : Inv max [] ((k, b) :: Q) c' (put_meta (set_base p (return_free s2 i)) b m)).
          { apply (Gen (i :: free_i (base p)) m); auto.
            - intros j. rewrite !cnt_cons, Mr. cbn [opt]. change (cnt j []) with 0. lia.
            - rewrite Mr. split; [intros K; contradiction|discriminate]. }
          revert K. intros K. apply (inv_peq _ _ _ _ _ _ K); try reflexivity. intros y. usimp. destruct (Nat.eq_dec y b) as [->|n]; [rewrite upd_same; assumption|rewrite upd_other by assumption; reflexivity]. }
        change (uns (set_base p (return_free s2 i))) with (uns p).
        assert (Ro' : forall y, y <> b -> refs (vw c' y) = 0 -> val (vw c' y) <> None -> hd_error (sops (set_base p (return_free s2 i)) y) = Some op_acquire ->
                      int (B (set_base p (return_free s2 i)) y) <> None).
        { intros y n K1 K2 K3. subst s2. unfold return_free. usimp. rewrite !upd_other by assumption. apply Ro; auto. }
        assert (Vn : val (vw c' b) = None) by (rewrite Vb'; reflexivity).
        destruct (uns p) as [|u ur] eqn:Eu.
        -- cbn [bind]. destruct (finish max Q c' _ k b K) as (q & F1 & F2 & F3 & F4 & F5 & F6 & F7); auto; try congruence.
           { left. assumption. }
           exists q, []. rewrite app_nil_r, F5, F6, F7. csplit; auto.
        -- destruct (then_next max Q c' (set_base p (return_free s2 i)) k b K) as (q & l1 & F1 & F2 & F3 & F4 & F5 & F6 & F7); auto.
           { intros K2. congruence. }
           { usimp. subst s2. unfold return_free. usimp. rewrite Eu. assumption. }
           { right. left. assumption. }
           { destruct S1 as [K2|(K2 & _)]; [congruence|]. unfold budget in *. subst s2. unfold return_free. usimp. cbn [length]. lia. }
           exists q, l1. csplit; auto; [rewrite <- F2; symmetry; assumption|rewrite F6; exact Ep].
  - (* more references *)
    assert (Vb : vw c' b = mkV (val (vw c b)) (refs (vw c b) - 1) (work (vw c b)) (d || drt (vw c b)) (mdf (vw c b))).
    { subst c'. cbn [after]. rewrite Sm. cbn [set_vw vw]. rewrite upd_same. destruct (Nat.eqb_spec (refs (vw c b)) 1); [contradiction|reflexivity]. }
    assert (Ia : is_acquired B1 = true) by (subst B1; unfold is_acquired; cbn [rc]; apply Nat.ltb_lt; lia). rewrite Ia. cbn [bind].
    assert (Hh : hold p1 b = Some i) by (apply hold_int; subst p1; usimp; rewrite upd_same; exact A1).
    assert (K : Inv max [] ((k, b) :: Q) c' p1).
    { apply (inv_quiet max ((k, b) :: Q) c c' p p1 b m m); auto; rewrite ?Hh, ?Hb; subst p1; usimp; rewrite ?upd_same; auto.
      - intros y n. apply upd_other. assumption.
      - rewrite Vb. reflexivity.
      - rewrite Vb. cbn [refs]. lia.
      - rewrite Vb. cbn [refs]. lia.
      - intros _. exists i. usimp. rewrite upd_same, Vb. subst B1. cbn [int dirty ext work drt mdf val]. csplit; auto.
        + intros K. apply orb_true_iff in K. apply orb_true_iff. tauto.
        + intros K. apply orb_true_iff in K. destruct K as [->|K]; [auto|]. destruct (A4 K) as [->|K2]; [rewrite orb_true_r; auto|auto].
        + intros K. apply orb_false_iff in K. apply A5. tauto.
      - apply (I_fend _ _ _ _ _ H).
      - apply (I_send _ _ _ _ _ H).
      - tauto.
      - tauto.
      - unfold is_evictable. rewrite Ia. cbn. split; [tauto|discriminate].
      - intros K. contradiction.
      - discriminate. }
    destruct (finish max Q c' _ k b K) as (q & F1 & F2 & F3 & F4 & F5 & F6 & F7); try congruence.
    + apply (SC_hold p); auto; try reflexivity. intros y. unfold hold. subst p1. usimp.
      destruct (Nat.eq_dec y b) as [->|n]; [rewrite upd_same|rewrite upd_other by assumption]; reflexivity.
    + intros y n K1 K2 K3. subst p1. usimp. rewrite upd_other by assumption. apply Ro; auto.
    + intros _ _ _. subst p1. usimp. rewrite upd_same. subst B1. cbn [int]. congruence.
    + exists q, []. rewrite app_nil_r, F5, F6, F7. csplit; auto.
Qed.
End Oracles.
