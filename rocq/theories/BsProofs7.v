(** The simulation compared with the online algorithm. *)
From Coq Require Import ZArith List Bool Lia Permutation Arith Sorted.
From Verif Require Import BsModel BsSpec BsProofs BsProofs2 BsProofs3 BsProofs4 BsProofs5 BsProofs6.
Import ListNotations.

(** What the counter of a block in the simulation means. *)
Definition counts (v : view) (z : Z) : Prop :=
  (refs v = 0 -> drt v = false) /\
  exists j, z = (Z.of_nat (refs v) + j)%Z /\ (0 <= j)%Z /\ ((0 < j)%Z <-> val v <> None \/ drt v = true).

Record J (n : nat) (s t : st) (p : client) (k : list nat) (m : simst) : Prop := mkJ {
  J_al : al t = Sim k m;
  J_nblk : nblk t = nblk s;
  J_free : free_s t = free_s s;
  J_nd : NoDup k;
  J_ev : forall b, In b k -> b < nblk t /\ is_evictable (blk t b) = true;
  J_live : forall b, live p b = true -> counts (vw p b) (rcs m b);
  J_dead : forall b, live p b = false -> rcs m b = 0%Z;
  J_bound : forall b, (rcs m b <= Z.of_nat (S n))%Z;
  J_time : StronglySorted le (map ptime (pseq m)) /\ Forall (fun x => ptime x <= time m) (pseq m)
}.

Lemma sorted_app_le l x : StronglySorted le l -> Forall (fun y => y <= x) l -> StronglySorted le (l ++ [x]).
Proof.
  induction 1 as [|y l H1 IH H2]; intros F; cbn; [constructor; constructor|]. inversion F; subst.
  constructor; [auto|]. apply Forall_app. split; [assumption|]. constructor; [assumption|constructor].
Qed.

(** Recording an entry. *)
Definition stamped (m : simst) : Prop :=
  StronglySorted le (map ptime (pseq m)) /\ Forall (fun x => ptime x <= time m) (pseq m).

Lemma stamped_record m k b : stamped m -> stamped (sim_record m k b).
Proof.
  intros (H1 & H2). split; cbn.
  - rewrite map_app. cbn. apply sorted_app_le; [assumption|]. apply Forall_map. exact H2.
  - apply Forall_app. split; [assumption|]. constructor; [cbn; lia|constructor].
Qed.

Lemma stamped_later m m' : stamped m -> pseq m' = pseq m -> time m <= time m' -> stamped m'.
Proof.
  intros (H1 & H2) E T. split; rewrite E; [assumption|].
  eapply Forall_impl; [|exact H2]. cbn. intros x Hx. lia.
Qed.

Lemma wrap_id z : (0 <= z < 2 ^ 64)%Z -> wrap z = z.
Proof. intros H. unfold wrap. apply Z.mod_small. exact H. Qed.

Lemma counts_nonneg v z : counts v z -> (0 <= z)%Z.
Proof. intros (_ & j & -> & H & _). lia. Qed.

(** Stepping the simulation: only the algorithm changes. *)
Lemma J_step n s t p k m s1 p1 m1 : J n s t p k m -> nblk s1 = nblk s -> free_s s1 = free_s s ->
  live p1 = live p ->
  (forall b, live p b = true -> counts (vw p1 b) (rcs m1 b)) ->
  (forall b, live p b = false -> rcs m1 b = rcs m b) ->
  (forall b, (rcs m1 b <= Z.of_nat (S (S n)))%Z) -> stamped m1 ->
  J (S n) s1 (set_al t (Sim k m1)) p1 k m1.
Proof.
  intros [A1 A2 A3 A4 A5 A6 A7 A8 A9] E1 E2 E3 H1 H2 H3 H4.
  constructor; cbn; auto; try congruence.
  - intros b. rewrite E3. auto.
  - intros b. rewrite E3. intros Hb. rewrite H2 by assumption. auto.
Qed.

Section Ops.
Variable pick : nat -> list nat -> nat.
Variable dflt : option Z.
Hypothesis Fresh : fresh_blocks pick.

Lemma detach_total s b : is_evictable (blk s b) = true -> exists s1 i, detach pick s b = Ok (s1, i).
Proof.
  intros Ev. unfold detach. rewrite Ev. cbn [negb].
  destruct (evictable_inv _ Ev) as (_ & i & Ei). unfold clean.
  destruct (dirty (blk s b)); cbn [negb].
  - rewrite Ei. destruct (ext (blk s b)); cbn [new_ext bind blk set_disk set_b]; rewrite upd_same; cbn [int]; eauto.
  - cbn [bind]. rewrite Ei. eauto.
Qed.

Lemma clean_frees s b s1 : clean pick s b = Ok s1 -> free_s s1 = free_s s.
Proof.
  unfold clean. destruct (dirty (blk s b)); cbn [negb].
  - destruct (ext (blk s b)) as [e|]; cbn [new_ext]; destruct (int (blk s b)) as [i|]; try discriminate;
      intros K; injection K as <-; reflexivity.
  - intros K; injection K as <-. reflexivity.
Qed.
Lemma detach_frees s b s1 i : detach pick s b = Ok (s1, i) -> free_s s1 = free_s s.
Proof.
  unfold detach. destruct (is_evictable (blk s b)); cbn [negb]; [|discriminate].
  destruct (clean pick s b) as [s2| |] eqn:Ec; cbn [bind]; try discriminate.
  destruct (int (blk s2 b)) as [j|]; [|discriminate]. intros K; injection K as <- <-.
  cbn. exact (clean_frees _ _ _ Ec).
Qed.

Lemma flush_sim n : forall t k m, al t = Sim k m -> length k <= n -> NoDup k ->
  (forall b, In b k -> is_evictable (blk t b) = true) ->
  exists t1, flush pick n t = Ok t1 /\ al t1 = Sim [] m /\ nblk t1 = nblk t /\ free_s t1 = free_s t.
Proof.
  induction n as [|n IH]; intros t k m Ea Hn Nd Ev.
  - destruct k; [|cbn in Hn; lia]. cbn. rewrite Ea. cbn. exists t. auto.
  - cbn [flush]. rewrite Ea. destruct k as [|b k]; cbn [pop_evictable].
    + exists t. auto.
    + assert (Ev' : is_evictable (blk (set_al t (Sim k m)) b) = true) by (apply Ev; left; reflexivity).
      pose proof (clean_detach pick _ _ Ev') as Q.
      destruct (detach_total _ _ Ev') as (s2 & i & Ed). rewrite Ed in Q. cbn [bind] in Q.
      assert (Q' : bind (clean pick (set_al t (Sim k m)) b) (fun s1 =>
        bind (detach pick s1 b) (fun '(s2, i) => flush pick n (return_free s2 i))) = flush pick n (return_free s2 i)).
      { destruct (clean pick (set_al t (Sim k m)) b) as [s1| |]; cbn [bind] in *; [|discriminate|discriminate].
        destruct (detach pick s1 b) as [(s3, j)| |]; cbn [bind] in *; [|discriminate|discriminate].
        revert Q. generalize (return_free s3 j), (return_free s2 i). intros u w Q. injection Q as ->. reflexivity. }
      rewrite Q'. destruct (detach_effect _ _ _ _ _ Ed) as (D1 & D2 & D3 & D4 & D5 & D6).
      inversion Nd; subst.
      destruct (IH (return_free s2 i) k m) as (t1 & F1 & F2 & F3 & F4).
      * cbn. rewrite D5. reflexivity.
      * cbn in Hn. lia.
      * assumption.
      * intros c Hc. cbn. rewrite D2 by (intros ->; contradiction). apply Ev. right; assumption.
      * exists t1. rewrite F3, F4. cbn. rewrite D6, (detach_frees _ _ _ _ Ed). auto.
Qed.

(** What online operations do to the free list. *)
Lemma online_frees s o s1 r : do pick dflt s o = Ok (s1, r) ->
  match o with
  | Alloc => True
  | Free b => nblk s1 = nblk s /\ free_s s1 = b :: free_s s
  | _ => nblk s1 = nblk s /\ free_s s1 = free_s s
  end.
Proof.
  assert (GF : forall s s1 i, get_block pick s = Ok (s1, i) -> nblk s1 = nblk s /\ free_s s1 = free_s s).
  { clear. intros s s1 i E. split; [exact (proj1 (get_block_effect _ _ _ _ E))|].
    unfold get_block in E. destruct (get_free s) as [(s2, j)|] eqn:Eg.
    - injection E as <- <-. unfold get_free in Eg. destruct (free_i s).
      + destruct (0 <? remaining s); [|discriminate]. cbv zeta in Eg.
        revert Eg. generalize (Nat.min alloc_at_once (remaining s)). intros n Eg. injection Eg as <- <-. reflexivity.
      + injection Eg as <- <-. reflexivity.
    - destruct (pop_evictable (al s)) as [(v, a)|]; [|discriminate]. exact (detach_frees _ _ _ _ E). }
  assert (RW : forall s b d ins s1, release_with pick s b d ins = Ok s1 -> nblk s1 = nblk s /\ free_s s1 = free_s s).
  { clear. intros s b d ins s1 E. split; [exact (proj1 (proj2 (release_with_effect _ _ _ _ _ _ E)))|].
    unfold release_with in E. destruct (is_acquired (blk s b)); cbn [negb] in E; [|discriminate].
    destruct (is_acquired (mkSb _ _ _ _)); [injection E as <-; reflexivity|].
    destruct (dirty _ || is_external _); [injection E as <-; reflexivity|].
    destruct (detach pick _ b) as [(s2, i)| |] eqn:Ed; cbn [bind] in E; try discriminate.
    injection E as <-. exact (detach_frees _ _ _ _ Ed). }
  assert (DE : forall s b s1, deinitialize s b = Ok s1 -> nblk s1 = nblk s /\ free_s s1 = free_s s).
  { clear. intros s b s1 E. unfold deinitialize in E. destruct (b <? nblk s); cbn [negb] in E; [|discriminate].
    destruct (is_sim (al s)) eqn:Es.
    - destruct (al s); try discriminate. injection E as <-. auto.
    - rewrite (Ncase _ Es) in E. destruct (is_acquired (blk s b)); [discriminate|]. injection E as <-.
      destruct (ext (blk s b)), (is_evictable (blk s b)), (int (blk s b)); auto. }
  assert (FL : forall n s s1, flush pick n s = Ok s1 -> nblk s1 = nblk s /\ free_s s1 = free_s s).
  { clear. induction n as [|n IH]; intros s s1; cbn; destruct (pop_evictable (al s)) as [(c, a)|];
      try discriminate; try (intros E; injection E as <-; auto; fail).
    destruct (clean pick (set_al s a) c) as [s2| |] eqn:Ec; cbn [bind]; try discriminate.
    destruct (detach pick s2 c) as [(s3, i)| |] eqn:Ed; cbn [bind]; try discriminate.
    intros E. destruct (IH _ _ E) as (I1 & I2). rewrite I1, I2. cbn.
    rewrite (proj2 (proj2 (proj2 (proj2 (proj2 (detach_effect _ _ _ _ _ Ed)))))), (detach_frees _ _ _ _ Ed).
    rewrite (proj2 (proj2 (proj2 (proj2 (clean_effect _ _ _ _ Ec))))), (clean_frees _ _ _ Ec). auto. }
  intros E. destruct o; cbn [do] in E.
  - destruct (acquire pick dflt s b un) as [(s2, i)| |] eqn:Ea; cbn [bind] in E; try discriminate.
    injection E as <- <-. split; [exact (proj1 (acquire_effect _ _ _ _ _ _ _ Ea))|].
    unfold acquire in Ea. destruct (b <? nblk s); cbn [negb] in Ea; [|discriminate].
    destruct (is_sim (al s)) eqn:Es.
    + destruct (al s); try discriminate. injection Ea as <- <-. reflexivity.
    + rewrite (Ncase _ Es) in Ea. destruct (int (blk s b)) as [j|].
      * injection Ea as <- <-. destruct (is_acquired (blk s b)); reflexivity.
      * destruct (get_block pick s) as [(s3, k)| |] eqn:Eg; cbn [bind] in Ea; try discriminate.
        rewrite <- (proj2 (GF _ _ _ Eg)).
        destruct (sb_initialized (blk s3 b)); [destruct un; [|destruct (ext (blk s3 b)) as [e|]; [|discriminate]]|
          destruct dflt as [z|]; [destruct un|]]; injection Ea as <- <-; reflexivity.
  - destruct (release pick s b d) as [s2| |] eqn:Er; cbn [bind] in E; try discriminate. injection E as <- <-.
    unfold release in Er. destruct (b <? nblk s); cbn [negb] in Er; [|discriminate].
    destruct (al s) as [q|k m|q [|t nu]].
    + exact (RW _ _ _ _ _ Er).
    + injection Er as <-. auto.
    + exact (RW _ _ _ _ _ Er).
    + destruct (release_with pick s b d _) as [s3| |] eqn:E3; cbn [bind] in Er; try discriminate.
      destruct (al s3) as [| |q1 [|t1 nu1]]; try discriminate. injection Er as <-. exact (RW _ _ _ _ _ E3).
  - destruct (deinitialize s b) as [s2| |] eqn:Er; cbn [bind] in E; try discriminate. injection E as <- <-. eauto.
  - destruct (initialize s b e) as [s2| |] eqn:Er; cbn [bind] in E; try discriminate. injection E as <- <-.
    unfold initialize in Er. destruct (b <? nblk s); cbn [negb] in Er; [|discriminate].
    destruct (is_sim (al s)) eqn:Es.
    + destruct (al s); try discriminate. injection Er as <-. auto.
    + rewrite (Ncase _ Es) in Er. destruct (sb_initialized (blk s b)); [discriminate|]. injection Er as <-. auto.
  - destruct (extract pick s b) as [(s2, x)| |] eqn:Er; cbn [bind] in E; try discriminate. injection E as <- <-.
    unfold extract in Er. destruct (b <? nblk s); cbn [negb] in Er; [|discriminate].
    destruct (is_sim (al s)) eqn:Es.
    + destruct (al s); try discriminate. injection Er as <- <-. auto.
    + rewrite (Ncase _ Es) in Er. cbv zeta in Er.
      assert (Q : nblk (if is_evictable (blk s b) then set_al s (erase_evictable (al s) b) else s) = nblk s /\
                  free_s (if is_evictable (blk s b) then set_al s (erase_evictable (al s) b) else s) = free_s s)
        by (destruct (is_evictable (blk s b)); auto).
      set (s0 := if is_evictable (blk s b) then set_al s (erase_evictable (al s) b) else s) in *. clearbody s0.
      destruct Q as (Q1 & Q2). destruct (is_internal (blk s b)).
      * destruct (detach pick s0 b) as [(s3, i)| |] eqn:Ed; cbn [bind] in Er; try discriminate.
        injection Er as <- <-. cbn.
        rewrite (proj2 (proj2 (proj2 (proj2 (proj2 (detach_effect _ _ _ _ _ Ed)))))), (detach_frees _ _ _ _ Ed). auto.
      * cbn [bind] in Er. injection Er as <- <-. auto.
  - destruct (is_initialized s b); cbn [bind] in E; try discriminate. injection E as <- <-. auto.
  - exact I.
  - unfold free_block in E. destruct (deinitialize s b) as [s2| |] eqn:Er; cbn [bind] in E; try discriminate.
    injection E as <- <-. cbn. destruct (DE _ _ _ Er) as (-> & ->). auto.
  - destruct (flush pick _ s) as [s2| |] eqn:Ef; cbn [bind] in E; try discriminate. injection E as <- <-. eauto.
  - injection E as <- <-. destruct (al s); auto.
  - injection E as <- <-. auto.
  - injection E as <- <-. auto.
  - injection E as <- <-. unfold to_lfd. destruct (lfd_scan ps). auto.
  - destruct (access s b); cbn [bind] in E; try discriminate. injection E as <- <-. auto.
  - destruct (access s b); cbn [bind] in E; try discriminate. injection E as <- <-. auto.
  - injection E as <- <-. auto.
  - injection E as <- <-. auto.
  - injection E as <- <-. auto.
  - injection E as <- <-. auto.
Qed.

(** One operation, online and in the simulation. *)
Lemma sim_op max n s t p k m o s1 r : R max [] [] s p -> simu p = false -> legal p o ->
  do pick dflt s o = Ok (s1, r) -> simulated o = true -> J n s t p k m ->
  (Z.of_nat (S (S n)) < 2 ^ 64)%Z ->
  if no_access o then
    exists t1 r1 k1 m1, do pick dflt t o = Ok (t1, r1) /\ J (S n) s1 t1 (after p o r) k1 m1 /\
      answers [(o, r1)] = answers [(o, r)] /\ entries (pseq m1) = entries (pseq m) ++ predicts o
  else J (S n) s1 t (after p o r) k m.
Proof.
  intros H Ep L E Hs HJ Hn.
  pose proof (online_frees _ _ _ _ E) as OF.
  assert (OK : exists s1' r', do pick dflt s o = Ok (s1', r') /\ allowed dflt p o r' /\ R max [] [] s1' (after p o r')).
  { destruct (do_ok pick dflt Fresh max s p o H L) as [K|(b & un & -> & E' & _)]; [exact K|congruence]. }
  destruct OK as (s1' & r' & E' & Al & H1). rewrite E in E'. injection E' as <- <-.
  assert (Hnb : forall b, live p b = true -> (b <? nblk t) = true).
  { intros b Lb. rewrite (J_nblk _ _ _ _ _ _ HJ). exact (live_lt _ _ _ _ _ _ H Lb). }
  pose proof (J_al _ _ _ _ _ _ HJ) as Ea. pose proof (J_live _ _ _ _ _ _ HJ) as Jl.
  pose proof (J_dead _ _ _ _ _ _ HJ) as Jd. pose proof (J_bound _ _ _ _ _ _ HJ) as Jb.
  pose proof (J_time _ _ _ _ _ _ HJ) as Jt. fold (stamped m) in Jt.
  assert (Jb' : forall b, (rcs m b <= Z.of_nat (S (S n)))%Z) by (intros b; specialize (Jb b); lia).
  (* the simulation only changes its counters *)
  assert (KEEP : forall s1 p1, nblk s1 = nblk s -> free_s s1 = free_s s -> live p1 = live p ->
            (forall b, live p b = true -> counts (vw p1 b) (rcs m b)) -> J (S n) s1 t p1 k m).
  { intros s2 p1 K1 K2 K3 K4. destruct HJ as [A1 A2 A3 A4 A5 A6 A7 A8 A9].
    constructor; auto; try congruence; intros b; rewrite K3; auto. }
  destruct o; cbn [no_access] in *; cbn [do predicts answers flat_map fst snd app] in *.
  - (* acquire *)
    cbn in L. unfold acquire. rewrite (Hnb b L), Ea. cbn [negb bind].
    eexists. eexists. exists k, (sim_acquire m b un). split; [reflexivity|].
    destruct Al as [Al|(z & -> & Al)]; [congruence|]. cbn [after]. rewrite Ep.
    pose proof (Jl b L) as C. pose proof (counts_nonneg _ _ C) as Cn. pose proof (Jb b) as Cb.
    assert (W : wrap (rcs m b + 1) = (rcs m b + 1)%Z) by (apply wrap_id; lia).
    split; [|split; [reflexivity|]].
    + eapply J_step; [exact HJ|apply OF|apply OF|reflexivity| | | |].
      * intros c Lc. unfold sim_acquire, sim_record. cbn [rcs vw set_vw]. rewrite W.
        destruct (Nat.eq_dec c b) as [->|nb].
        -- rewrite !upd_same. destruct C as (C1 & j & C2 & C3 & C4). split.
           ++ destruct (refs (vw p b) =? 0); cbn; discriminate.
           ++ exists j. destruct (Nat.eqb_spec (refs (vw p b)) 0) as [e|]; cbn [refs val drt].
              ** rewrite C2, e. split; [lia|]. split; [lia|]. rewrite C4, (C1 e). reflexivity.
              ** rewrite C2. split; [lia|]. split; [lia|]. exact C4.
        -- rewrite !upd_other by assumption. auto.
      * intros c Lc. cbn. rewrite upd_other by congruence. reflexivity.
      * intros c. cbn. rewrite W. unfold upd. destruct (c =? b); [lia|auto].
      * apply stamped_record. eapply stamped_later; [exact Jt|reflexivity|cbn; lia].
    + unfold entries. cbn. rewrite map_app. cbn. destruct un; reflexivity.
  - (* release *)
    destruct L as (Lb & [L|(Hr & _)]); [congruence|]. unfold release. rewrite (Hnb b Lb), Ea. cbn [negb bind].
    eexists. eexists. exists k, (sim_release m b d). split; [reflexivity|].
    cbn [after]. rewrite Ep.
    pose proof (Jl b Lb) as C. pose proof (Jb b) as Cb.
    destruct C as (C1 & j & C2 & C3 & C4).
    assert (W : wrap (rcs m b - 1 + Z.b2z d) = (rcs m b - 1 + Z.b2z d)%Z) by (apply wrap_id; destruct d; cbn [Z.b2z]; lia).
    split; [|split; [reflexivity|]].
    + eapply J_step; [exact HJ|apply OF|apply OF|reflexivity| | | |].
      * intros c Lc. unfold sim_release, sim_record. cbn [rcs vw set_vw]. rewrite W.
        destruct (Nat.eq_dec c b) as [->|nb].
        -- rewrite !upd_same. split.
           ++ destruct (Nat.eqb_spec (refs (vw p b)) 1) as [e|ne]; cbn; [reflexivity|lia].
           ++ exists (j + Z.b2z d)%Z. rewrite C2.
              destruct (Nat.eqb_spec (refs (vw p b)) 1) as [e|ne]; cbn [refs val drt].
              ** split; [lia|]. split; [destruct d; cbn [Z.b2z]; lia|]. destruct d; cbn [Z.b2z orb].
                 --- split; [intros _; left; discriminate|lia].
                 --- rewrite Z.add_0_r, C4. destruct (drt (vw p b)); [|reflexivity].
                     split; intros _; [left; discriminate|right; reflexivity].
              ** split; [lia|]. split; [destruct d; cbn [Z.b2z]; lia|]. destruct d; cbn [Z.b2z orb].
                 --- split; [intros _; right; reflexivity|lia].
                 --- rewrite Z.add_0_r. exact C4.
        -- rewrite !upd_other by assumption. auto.
      * intros c Lc. cbn. rewrite upd_other by congruence. reflexivity.
      * intros c. unfold sim_release, sim_record. cbn [rcs]. rewrite W. unfold upd.
        destruct (c =? b); [destruct d; cbn [Z.b2z]; lia|auto].
      * apply stamped_record. eapply stamped_later; [exact Jt|reflexivity|cbn; destruct (last_rel m); lia].
    + unfold entries. cbn. rewrite map_app. cbn. destruct d; reflexivity.
  - (* deinitialize *)
    destruct L as (Lb & [L|Hr]); [congruence|]. unfold deinitialize. rewrite (Hnb b Lb), Ea. cbn [negb bind].
    eexists. eexists. exists k, (sim_deinitialize m b). split; [reflexivity|].
    cbn [after]. rewrite Ep. split; [|split; [reflexivity|]].
    + eapply J_step; [exact HJ|apply OF|apply OF|reflexivity| | | |].
      * intros c Lc. cbn [sim_deinitialize sim_record sim_set rcs vw set_vw].
        destruct (Nat.eq_dec c b) as [->|nb].
        -- rewrite !upd_same. split; [reflexivity|]. exists 0%Z. cbn. repeat split; try lia. intros [K|K]; congruence.
        -- rewrite !upd_other by assumption. auto.
      * intros c Lc. cbn. rewrite upd_other by congruence. reflexivity.
      * intros c. cbn [sim_deinitialize sim_record sim_set rcs]. unfold upd. destruct (c =? b); [lia|auto].
      * apply stamped_record. eapply stamped_later; [exact Jt|reflexivity|cbn; lia].
    + unfold entries. cbn. rewrite map_app. reflexivity.
  - (* initialize *)
    destruct L as (Lb & [L|(Hr & Hv & Ho)]); [congruence|]. unfold initialize. rewrite (Hnb b Lb), Ea. cbn [negb bind].
    destruct e as [e|]; [|discriminate].
    eexists. eexists. exists k, (sim_initialize m b). split; [reflexivity|].
    cbn [after]. rewrite Ep. split; [|split; [reflexivity|]].
    + eapply J_step; [exact HJ|apply OF|apply OF|reflexivity| | | |].
      * intros c Lc. cbn [sim_initialize sim_record sim_set rcs vw set_vw set_own].
        destruct (Nat.eq_dec c b) as [->|nb].
        -- rewrite !upd_same. split; [reflexivity|]. exists 1%Z. cbn. repeat split; try lia. intros _. left; assumption.
        -- rewrite !upd_other by assumption. auto.
      * intros c Lc. cbn. rewrite upd_other by congruence. reflexivity.
      * intros c. cbn [sim_initialize sim_record sim_set rcs]. unfold upd. destruct (c =? b); [lia|auto].
      * apply stamped_record. eapply stamped_later; [exact Jt|reflexivity|cbn; lia].
    + unfold entries. cbn. rewrite map_app. reflexivity.
  - (* extract *)
    destruct L as (Lb & [L|Hr]); [congruence|]. unfold extract. rewrite (Hnb b Lb), Ea. cbn [negb bind].
    eexists. eexists. exists k, (sim_extract m b). split; [reflexivity|].
    cbn [after]. rewrite Ep. destruct Al as [Al|Al]; [congruence|]. split; [|split; [reflexivity|]].
    + eapply J_step; [exact HJ|apply OF|apply OF| | | | |].
      * destruct r as [| | | |[e|]]; reflexivity.
      * intros c Lc. cbn [sim_extract sim_record sim_set rcs].
        destruct (Nat.eq_dec c b) as [->|nb].
        -- rewrite upd_same. destruct (val (vw p b)) eqn:Ev.
           ++ destruct Al as (e & -> & _). cbn. rewrite upd_same. split; [reflexivity|].
              exists 0%Z. cbn. repeat split; try lia. intros [K|K]; congruence.
           ++ subst r. destruct (Jl b Lb) as (C1 & j & C2 & C3 & C4). split; [assumption|]. exists 0%Z. rewrite Hr.
              split; [reflexivity|]. split; [lia|]. rewrite Ev, (C1 Hr). split; [lia|intros [K|K]; congruence].
        -- rewrite upd_other by assumption. destruct r as [| | | |[e|]]; cbn; rewrite ?upd_other by assumption; auto.
      * intros c Lc. cbn. rewrite upd_other by congruence. reflexivity.
      * intros c. cbn [sim_extract sim_record sim_set rcs]. unfold upd. destruct (c =? b); [lia|auto].
      * apply stamped_record. eapply stamped_later; [exact Jt|reflexivity|cbn; lia].
    + unfold entries. cbn. rewrite map_app. reflexivity.
  - (* is_initialized *)
    cbn in L. unfold is_initialized. rewrite (Hnb b L), Ea. cbn [negb bind].
    eexists. eexists. exists k, m. split; [reflexivity|]. cbn [after].
    split; [apply KEEP; auto; apply OF|]. split; [|rewrite app_nil_r; reflexivity].
    destruct Al as [Al|(x & -> & Al)]; [congruence|].
    destruct (Jl b L) as (C1 & j & C2 & C3 & C4). f_equal. f_equal.
    destruct (Z.ltb_spec 0 (rcs m b)) as [Hlt|Hge].
    + symmetry. apply Al. destruct (refs (vw p b)) as [|q] eqn:Eq; [|left; lia].
      right. assert (Hj : (0 < j)%Z) by lia. apply C4 in Hj. destruct Hj as [K|K]; [assumption|].
      rewrite (C1 eq_refl) in K. discriminate.
    + destruct x; [exfalso|reflexivity]. assert (T : true = true) by reflexivity. apply Al in T.
      destruct T as [T|T]; [lia|]. assert (Hj : (0 < j)%Z) by (apply C4; left; assumption). lia.
  - (* allocate *)
    unfold allocate in *. rewrite (J_free _ _ _ _ _ _ HJ), (J_nblk _ _ _ _ _ _ HJ), Ea.
    destruct (free_s s) as [|x l] eqn:Ef.
    + injection E as <- <-. eexists. eexists. exists k, (sim_set m (nblk s) 0%Z). split; [reflexivity|].
      cbn [after]. split; [|split; [reflexivity|rewrite app_nil_r; reflexivity]].
      assert (Ll : live p (nblk s) = false).
      { destruct (live p (nblk s)) eqn:El; [|reflexivity]. apply (R_live _ _ _ _ _ H) in El. lia. }
      constructor; cbn [al nblk free_s blk live vw set_live sim_set rcs time pseq].
      * reflexivity.
      * reflexivity.
      * reflexivity.
      * exact (J_nd _ _ _ _ _ _ HJ).
      * intros b Hb. destruct (J_ev _ _ _ _ _ _ HJ b Hb) as (K1 & K2). rewrite (J_nblk _ _ _ _ _ _ HJ) in K1.
        rewrite upd_other by lia. split; [lia|assumption].
      * intros b. unfold upd. destruct (Nat.eqb_spec b (nblk s)) as [->|nb]; [|apply Jl].
        intros _. split; [reflexivity|]. exists 0%Z. cbn. repeat split; try lia. intros [K|K]; congruence.
      * intros b. unfold upd. destruct (Nat.eqb_spec b (nblk s)) as [->|nb]; [discriminate|apply Jd].
      * intros b. unfold upd. destruct (b =? nblk s); [lia|auto].
      * exact Jt.
    + injection E as <- <-. cbv zeta in *.
      eexists. eexists. exists k, m. split; [reflexivity|].
      split; [|split; [reflexivity|rewrite app_nil_r; reflexivity]].
      destruct Al as (b0 & Al & Lb0). injection Al as Al. rewrite Al in *. clear Al.
      cbn [after]. destruct HJ as [A1 A2 A3 A4 A5 A6 A7 A8 A9].
      constructor; cbn [al nblk free_s blk live vw set_live set_free_s]; auto.
      * intros b. unfold upd. destruct (Nat.eqb_spec b b0) as [->|nb]; [|apply A6].
        intros _. split; [reflexivity|]. exists 0%Z. rewrite (A7 _ Lb0). cbn. repeat split; try lia. intros [K|K]; congruence.
      * intros b. unfold upd. destruct (Nat.eqb_spec b b0) as [->|nb]; [discriminate|apply A7].
  - (* free *)
    destruct L as (Lb & Hr & _). unfold free_block, deinitialize. rewrite (Hnb b Lb), Ea. cbn [negb bind].
    eexists. eexists. exists k, (sim_deinitialize m b). split; [reflexivity|].
    cbn [after]. split; [|split; [reflexivity|]].
    + destruct OF as (O1 & O2). destruct HJ as [A1 A2 A3 A4 A5 A6 A7 A8 A9].
      constructor; cbn [al nblk free_s blk live vw set_live set_free_s set_al]; auto; try congruence.
      * intros c. unfold upd at 1 2. destruct (Nat.eqb_spec c b) as [->|nb]; [discriminate|].
        intros Lc. cbn. rewrite upd_other by assumption. auto.
      * intros c. unfold upd. cbn. unfold upd. destruct (Nat.eqb_spec c b) as [->|nb]; [reflexivity|]. apply A7.
      * intros c. cbn [sim_deinitialize sim_record sim_set rcs]. unfold upd. destruct (c =? b); [lia|auto].
      * apply stamped_record. eapply stamped_later; [exact Jt|reflexivity|cbn; lia].
    + unfold entries. cbn. rewrite map_app. reflexivity.
  - (* flush *)
    rewrite Ea. cbn [evictables].
    destruct (flush_sim (length k) t k m Ea (le_n _) (J_nd _ _ _ _ _ _ HJ)) as (t1 & F1 & F2 & F3 & F4).
    { intros b Hb. apply (J_ev _ _ _ _ _ _ HJ b Hb). }
    rewrite F1. cbn [bind]. eexists. eexists. exists [], m. split; [reflexivity|].
    split; [|split; [reflexivity|rewrite app_nil_r; reflexivity]].
    destruct OF as (O1 & O2). destruct HJ as [A1 A2 A3 A4 A5 A6 A7 A8 A9]. cbn [after].
    constructor; auto; try congruence; try constructor; contradiction.
  - (* timestep *)
    rewrite Ea. eexists. eexists. exists k, (mkSim (rcs m) (S (time m)) (last_rel m) (pseq m)).
    split; [reflexivity|]. split; [|split; [reflexivity|rewrite app_nil_r; reflexivity]].
    eapply J_step; [exact HJ|apply OF|apply OF|reflexivity|exact Jl|reflexivity|exact Jb'|].
    eapply stamped_later; [exact Jt|reflexivity|cbn; lia].
  - discriminate.
  - discriminate.
  - discriminate.
  - (* write *)
    destruct L as (Lb & _ & Hr). apply KEEP; try apply OF; [reflexivity|].
    intros c Lc. cbn. destruct (Nat.eq_dec c b) as [->|nb].
    + rewrite upd_same. exact (Jl b Lb).
    + rewrite upd_other by assumption. auto.
  - apply KEEP; auto; apply OF.
  - eexists. eexists. exists k, m. split; [reflexivity|].
    split; [|split; [reflexivity|rewrite app_nil_r; reflexivity]].
    assert (KJ : J (S n) s1 t (after p (NewExt d) r) k m).
    { apply KEEP; try apply OF; destruct r as [| | | |[e|]]; auto. }
    destruct KJ as [A1 A2 A3 A4 A5 A6 A7 A8 A9]. constructor; auto.
  - eexists. eexists. exists k, m. split; [reflexivity|].
    split; [|split; [reflexivity|rewrite app_nil_r; reflexivity]].
    assert (KJ : J (S n) s1 t (after p (WriteExt e d) r) k m) by (apply KEEP; auto; apply OF).
    destruct KJ as [A1 A2 A3 A4 A5 A6 A7 A8 A9]. constructor; auto.
  - eexists. eexists. exists k, m. split; [reflexivity|].
    split; [|split; [reflexivity|rewrite app_nil_r; reflexivity]].
    apply KEEP; auto; apply OF.
  - eexists. eexists. exists k, m. split; [reflexivity|].
    split; [|split; [reflexivity|rewrite app_nil_r; reflexivity]].
    assert (KJ : J (S n) s1 t (after p (DelExt e) r) k m) by (apply KEEP; auto; apply OF).
    destruct KJ as [A1 A2 A3 A4 A5 A6 A7 A8 A9]. constructor; auto.
Qed.

Lemma sim_run max ops : forall n s t p k m s1 rs, R max [] [] s p -> simu p = false ->
  run pick dflt s ops = Ok (s1, rs) -> legal_run p (combine ops rs) -> forallb simulated ops = true ->
  J n s t p k m -> (Z.of_nat (S (n + length ops)) < 2 ^ 64)%Z ->
  exists t1 rs1 k1 m1, run pick dflt t (filter no_access ops) = Ok (t1, rs1) /\
    al t1 = Sim k1 m1 /\
    answers (combine (filter no_access ops) rs1) = answers (combine ops rs) /\
    entries (pseq m1) = entries (pseq m) ++ flat_map predicts ops /\
    StronglySorted le (map ptime (pseq m1)).
Proof.
  induction ops as [|o ops IH]; intros n s t p k m s1 rs H Ep E L Hs HJ Hn; cbn [run] in E.
  - injection E as <- <-. cbn. exists t, [], k, m. rewrite app_nil_r.
    split; [reflexivity|]. split; [exact (J_al _ _ _ _ _ _ HJ)|]. split; [reflexivity|]. split; [reflexivity|].
    exact (proj1 (J_time _ _ _ _ _ _ HJ)).
  - destruct (do pick dflt s o) as [(s2, x)| |] eqn:Ed; cbn [bind] in E; try discriminate.
    destruct (run pick dflt s2 ops) as [(s3, xs)| |] eqn:Er; cbn [bind] in E; try discriminate.
    injection E as <- <-. cbn [combine legal_run] in L. destruct L as (L & Lr).
    cbn [forallb] in Hs. apply andb_prop in Hs. destruct Hs as (Ho & Hs). cbn [length] in Hn.
    assert (H2 : R max [] [] s2 (after p o x)).
    { destruct (do_ok pick dflt Fresh max s p o H L) as [(s1' & r' & E' & _ & H')|(b & un & -> & E' & _)]; [|congruence].
      rewrite Ed in E'. injection E' as <- <-. exact H'. }
    assert (Hn2 : (Z.of_nat (S (S n)) < 2 ^ 64)%Z) by lia.
    pose proof (sim_op _ _ _ _ _ _ _ _ _ _ H Ep L Ed Ho HJ Hn2) as Q.
    assert (Ep2 : simu (after p o x) = false).
    { rewrite simu_no_switch; [assumption|]. unfold simulated in Ho. apply andb_prop in Ho. tauto. }
    cbn [filter]. destruct (no_access o) eqn:En.
    + destruct Q as (t1 & r1 & k1 & m1 & Q1 & Q2 & Q3 & Q4).
      destruct (IH (S n) s2 t1 _ k1 m1 s3 xs H2 Ep2 Er Lr Hs Q2) as (t2 & rs2 & k2 & m2 & I1 & I2 & I3 & I4 & I5).
      { replace (S n + length ops) with (n + S (length ops)) by lia. exact Hn. }
      exists t2, (r1 :: rs2), k2, m2. cbn [run]. rewrite Q1. cbn [bind]. rewrite I1. cbn [bind].
      split; [reflexivity|]. split; [exact I2|]. split.
      * change (answers ([(o, r1)] ++ combine (filter no_access ops) rs2) = answers ([(o, x)] ++ combine ops xs)).
        unfold answers in *. rewrite !flat_map_app. rewrite I3, Q3. reflexivity.
      * cbn [flat_map]. rewrite I4, Q4, <- app_assoc. auto.
    + destruct (IH (S n) s2 t _ k m s3 xs H2 Ep2 Er Lr Hs Q) as (t2 & rs2 & k2 & m2 & I1 & I2 & I3 & I4 & I5).
      { replace (S n + length ops) with (n + S (length ops)) by lia. exact Hn. }
      exists t2, rs2, k2, m2. split; [exact I1|]. split; [exact I2|].
      split; [rewrite I3; destruct o; try discriminate; reflexivity|].
      split; [|exact I5]. rewrite I4. destruct o; try discriminate; reflexivity.
Qed.

Lemma drt_inv tr : forall p, legal_run p tr -> (forall b, refs (vw p b) = 0 -> drt (vw p b) = false) ->
  forall b, refs (vw (after_all p tr) b) = 0 -> drt (vw (after_all p tr) b) = false.
Proof.
  induction tr as [|(o, r) tr IH]; intros p L H; cbn in *; [exact H|].
  destruct L as (L & Lr). apply IH; [exact Lr|]. clear IH Lr.
  assert (U : forall b v, (refs v = 0 -> drt v = false) ->
    forall c, refs (upd (vw p) b v c) = 0 -> drt (upd (vw p) b v c) = false).
  { intros b v Hv c. unfold upd. destruct (c =? b); auto. }
  destruct o; cbn [after]; try exact H.
  - destruct (simu p); [exact H|]. destruct r; try exact H. apply U.
    destruct (refs (vw p b) =? 0); cbn; discriminate.
  - destruct L as (_ & L). destruct (simu p); [exact H|]. destruct L as [L|(L & _)]; [discriminate|]. apply U.
    destruct (Nat.eqb_spec (refs (vw p b)) 1); cbn; [reflexivity|lia].
  - destruct (simu p); [exact H|]. apply U. reflexivity.
  - destruct e; [|exact H]. destruct (simu p); [exact H|]. apply U. reflexivity.
  - destruct (simu p); [exact H|]. destruct r as [| | | |[e|]]; try exact H. apply U. reflexivity.
  - destruct r; try exact H. apply U. reflexivity.
  - apply U. reflexivity.
  - apply U. cbn. apply H.
  - destruct r as [| | | |[e|]]; exact H.
Qed.

Lemma J_start max s p : R max [] [] s p -> acquired_blocks s = [] ->
  (forall b, refs (vw p b) = 0 -> drt (vw p b) = false) ->
  exists k m, J 0 (to_lru s) (to_sim s) (set_simu p false) k m /\ pseq m = [].
Proof.
  intros H Hq Hd. exists (rev (evictables (al s))),
    (mkSim (fun b => if Nat.ltb b (nblk s) then Z.b2z (sb_initialized (blk s b)) else 0%Z) 0 false []).
  split; [|reflexivity].
  assert (Na : forall b, is_acquired (blk s b) = false).
  { intros b. destruct (is_acquired (blk s b)) eqn:Ea; [|reflexivity]. exfalso.
    assert (K : In b (acquired_blocks s)).
    { unfold acquired_blocks, those. apply filter_In. split; [|assumption]. apply in_seq.
      destruct (R_internal _ _ _ _ H Ea). lia. }
    rewrite Hq in K. contradiction. }
  constructor; cbn [al to_sim set_al nblk to_lru free_s blk live vw set_simu rcs pseq time map].
  - reflexivity.
  - reflexivity.
  - reflexivity.
  - apply NoDup_rev. exact (R_qnd _ _ _ _ _ H).
  - intros b Hb. apply in_rev in Hb. apply (R_q _ _ _ _ _ H) in Hb. tauto.
  - intros b Lb. pose proof (live_lt _ _ _ _ _ _ H Lb) as Hlt. rewrite Hlt.
    pose proof (R_rel _ _ _ _ _ H b Lb) as Br. unfold brel in Br. destruct Br as (Er & Br).
    specialize (Na b). apply acquired_false in Na. assert (E0 : refs (vw p b) = 0) by lia.
    split; [auto|]. rewrite E0. exists (Z.b2z (sb_initialized (blk s b))). split; [reflexivity|].
    split; [destruct (sb_initialized (blk s b)); cbn [Z.b2z]; lia|]. rewrite (Hd b E0).
    unfold sb_initialized, is_internal, is_external, has_external.
    destruct (int (blk s b)) as [i|].
    + destruct Br as (Br & _). destruct (Br E0) as (K & _). rewrite K. cbn. split; [left; discriminate|lia].
    + destruct Br as (_ & -> & ->). destruct (ext (blk s b)); cbn; split; auto; try lia.
      * left; discriminate.
      * intros [K|K]; congruence.
  - intros b Lb. destruct (R_new _ _ _ _ _ H b Lb) as (E & _). rewrite E. destruct (b <? nblk s); reflexivity.
  - intros b. destruct (b <? nblk s); [|lia]. destruct (sb_initialized (blk s b)); cbn [Z.b2z]; lia.
  - split; constructor.
Qed.

End Ops.
