(** The LFD algorithm of the block scheduler drops the block whose next request
    is farthest away. *)
From Coq Require Import ZArith List Bool Lia Permutation Arith Sorted.
From Verif Require Import BsModel BsSpec BsProofs BsProofs2 BsProofs3 BsProofs4 BsProofs5 BsProofs6 BeladySpec BeladyProofs.
Import ListNotations.

Lemma in_internal s x : In x (internal_blocks s) <-> x < nblk s /\ is_internal (blk s x) = true.
Proof. unfold internal_blocks, those. rewrite filter_In, in_seq. split; intros (H1 & H2); split; auto; lia. Qed.
Lemma internal_NoDup s : NoDup (internal_blocks s).
Proof. apply NoDup_filter. apply seq_NoDup. Qed.

(** ** The forecast *)

Lemma forecast_time l : forall t x, In x (forecast t l) -> ptime x <= t + length l.
Proof.
  induction l as [|v l IH]; intros t x H; [contradiction|]. cbn in H.
  destruct H as [<-|[<-|H]]; cbn; [lia|lia|]. apply IH in H. lia.
Qed.
Lemma forecast_next l : forall t c k,
  soon (requests l) k c = true <-> exists u, next_acquire (forecast t l) c = Some u /\ u < t + k.
Proof.
  unfold soon. induction l as [|v l IH]; intros t c k.
  - cbn. rewrite firstn_nil. split; [discriminate|intros (u & K & _); discriminate].
  - destruct k as [|k].
    + cbn [firstn mem_nat existsb]. split; [discriminate|]. intros (u & K1 & K2). exfalso. rewrite Nat.add_0_r in K2.
      clear IH. assert (G : forall l t u, next_acquire (forecast t l) c = Some u -> t <= u).
      { clear. induction l as [|v l IH]; intros t u; cbn; [discriminate|].
        destruct (Nat.eqb (v_blk v) c); [intros K; injection K as <-; lia|].
        intros K. apply IH in K. lia. }
      apply G in K1. lia.
    + cbn [requests map firstn]. fold (requests l).
      assert (E : mem_nat c (v_blk v :: firstn k (requests l)) = Nat.eqb c (v_blk v) || mem_nat c (firstn k (requests l)))
        by reflexivity.
      rewrite E. cbn [forecast next_acquire pid pop ptime]. rewrite (Nat.eqb_sym (v_blk v) c).
      destruct (Nat.eqb c (v_blk v)); cbn [orb].
      * split; [intros _; exists t; split; [reflexivity|lia]|reflexivity].
      * rewrite (IH (S t) c k). split; intros (u & K1 & K2); exists u; (split; [assumption|lia]).
Qed.
Lemma forecast_farthest l t c c' k : not_later (next_acquire (forecast t l) c') (next_acquire (forecast t l) c) ->
  soon (requests l) k c = true -> soon (requests l) k c' = true.
Proof.
  intros H K. apply (forecast_next l t) in K. destruct K as (u & K1 & K2). rewrite K1 in H.
  apply (forecast_next l t). destruct (next_acquire (forecast t l) c') as [u'|]; [|contradiction].
  cbn in H. exists u'. split; [reflexivity|lia].
Qed.

Section Run.
Variable pick : nat -> list nat -> nat.
Variable dflt : option Z.
Hypothesis Fresh : fresh_blocks pick.

Lemma evict_farthest max s p ps c a c' : R max [] [] s p -> lfd_inv s ps ->
  (forall x, In x ps -> (Z.of_nat (ptime x) < 2 ^ 62 - 1)%Z) ->
  pop_evictable (al s) = Some (c, a) -> c' < nblk s -> is_evictable (blk s c') = true ->
  not_later (next_acquire ps c') (next_acquire ps c).
Proof.
  intros HR (q & Q1 & Q2 & Q3) Ht Hp K1 K2. rewrite Q1 in Hp. destruct q as [|(z, x) q]; [discriminate|].
  cbn in Hp. injection Hp as -> <-.
  assert (K : In c' (evictables (al s))) by (apply (R_q _ _ _ _ _ HR); auto).
  rewrite Q1 in K. cbn [evictables] in K. apply in_map_iff in K. destruct K as ((z', x') & K3 & K4). cbn in K3. subst x'.
  destruct (Q3 _ _ K4) as (B' & HB'). destruct (Q3 z c (or_introl eq_refl)) as (B & HB).
  eapply (prio_order ps c' c B' B); [exact Ht|].
  rewrite <- HB, <- HB'. destruct K4 as [K4|K4]; [injection K4 as ->; lia|].
  inversion Q2 as [|? ? S1 F]; subst. rewrite Forall_forall in F. exact (F _ K4).
Qed.

(** acquire, if no block is acquired. *)
Lemma acquire_next max s p b v l t s1 r : R max [] [] s p -> simu p = false -> legal p (Acq b false) ->
  (forall c, refs (vw p c) = 0) -> v_blk v = b ->
  (Z.of_nat (t + length (v :: l)) < 2 ^ 62 - 1)%Z ->
  lfd_inv s (forecast t (v :: l)) -> do pick dflt s (Acq b false) = Ok (s1, r) ->
  lfd_next max (internal_blocks s) b (requests l) (internal_blocks s1).
Proof.
  intros H Ep L Hz Hv Ht Hi E.
  assert (H1 : R max [] [] s1 (after p (Acq b false) r)).
  { destruct (do_ok pick dflt Fresh max s p _ H L) as [(s1' & r' & E' & _ & H')|(b' & un & _ & E' & _)]; [|congruence].
    rewrite E in E'. injection E' as <- <-. exact H'. }
  pose proof (R_counts pick _ _ _ H) as (C1 & C2 & _ & _). pose proof (R_counts pick _ _ _ H1) as (D1 & D2 & _ & _).
  assert (Es : is_sim (al s) = false) by (rewrite <- (R_simu _ _ _ _ _ H); assumption).
  assert (Hb : b < nblk s) by (apply (R_live _ _ _ _ _ H); exact L).
  cbn [do] in E. destruct (acquire pick dflt s b false) as [(s2, i)| |] eqn:Ea; cbn [bind] in E; try discriminate.
  injection E as <- <-. destruct (acquire_effect pick dflt _ _ _ _ _ Ea) as (A1 & A2 & A3 & A4 & A5).
  destruct (A4 Es) as (A6 & _).
  assert (IB : In b (internal_blocks s2)) by (apply in_internal; rewrite A1; auto).
  assert (Hev : forall c, c < nblk s -> is_internal (blk s c) = true -> is_evictable (blk s c) = true).
  { intros c Hc Hc'. unfold is_evictable. rewrite Hc', andb_true_r.
    destruct (live p c) eqn:Lc.
    - pose proof (R_rel _ _ _ _ _ H c Lc) as (Er & _). unfold is_acquired. rewrite Er, Hz. reflexivity.
    - destruct (R_new _ _ _ _ _ H c Lc) as (En & _). rewrite En. reflexivity. }
  split; [apply internal_NoDup|].
  destruct (int (blk s b)) as [j|] eqn:Ej.
  - left. assert (Ib : In b (internal_blocks s)) by (apply in_internal; unfold is_internal; rewrite Ej; auto).
    split; [exact Ib|]. intros x. destruct (Nat.eq_dec x b) as [->|n]; [tauto|].
    rewrite !in_internal, A1. destruct (A2 x n) as [->|(_ & X & _)]; [tauto|congruence].
  - assert (Nb : ~ In b (internal_blocks s)).
    { rewrite in_internal. unfold is_internal. rewrite Ej. intros (_ & K). discriminate. }
    destruct (get_free s) as [g|] eqn:Eg.
    + right; left. split; [exact Nb|]. split.
      * unfold get_free in Eg. destruct (free_i s) as [|f fr]; cbn [length] in C1; [|lia].
        destruct (Nat.ltb_spec 0 (remaining s)); [lia|discriminate].
      * intros x. destruct (Nat.eq_dec x b) as [->|n]; [tauto|].
        rewrite !in_internal, A1. destruct (A2 x n) as [->|(_ & _ & X & _)]; [|congruence]. tauto.
    + right; right. split; [exact Nb|].
      assert (Lm : length (internal_blocks s) = max).
      { unfold get_free in Eg. destruct (free_i s) as [|f fr]; [|discriminate].
        destruct (Nat.ltb_spec 0 (remaining s)); [discriminate|]. cbn [length] in C1. lia. }
      assert (Hp : exists c a, pop_evictable (al s) = Some (c, a)).
      { unfold acquire in Ea. rewrite (proj2 (Nat.ltb_lt b (nblk s)) Hb) in Ea. cbn [negb] in Ea.
        rewrite (Ncase _ Es), Ej in Ea. unfold get_block in Ea. rewrite Eg in Ea.
        destruct (pop_evictable (al s)) as [(c, a)|]; [eauto|discriminate]. }
      destruct Hp as (c & a & Hp).
      assert (Ic : In c (internal_blocks s)).
      { assert (K : In c (evictables (al s))).
        { destruct (al s) as [[|y q]|[|y q] m0|[|(z, y) q] nu]; cbn in Hp; try discriminate; injection Hp as -> _; left; reflexivity. }
        apply (R_q _ _ _ _ _ H) in K. destruct K as (K1 & K2 & _). apply in_internal. split; [assumption|].
        unfold is_evictable in K2. apply andb_prop in K2. tauto. }
      assert (ncb : c <> b) by (intros ->; contradiction).
      assert (Hc : is_internal (blk s2 c) = false).
      { destruct (is_internal (blk s2 c)) eqn:Ec; [exfalso|reflexivity].
        assert (Le : length (b :: internal_blocks s) <= length (internal_blocks s2)).
        { apply NoDup_incl_length; [constructor; [exact Nb|apply internal_NoDup]|].
          intros x [<-|Hx]; [exact IB|]. apply in_internal in Hx. destruct Hx as (X1 & X2).
          apply in_internal. rewrite A1. split; [assumption|].
          destruct (Nat.eq_dec x b) as [->|n]; [assumption|].
          destruct (A2 x n) as [->|(_ & _ & _ & Y & _ & a' & Hp')]; [assumption|].
          assert (x = c) by congruence. subst x. exact Ec. }
        cbn [length] in Le. lia. }
      exists c. split; [exact Ic|]. split; [exact Lm|]. split.
      * intros k x Hx Hk. apply in_internal in Hx. destruct Hx as (X1 & X2).
        assert (nx : x <> b) by (intros ->; apply Nb; apply in_internal; auto).
        assert (NL : not_later (next_acquire (forecast t (v :: l)) x) (next_acquire (forecast t (v :: l)) c)).
        { refine (evict_farthest max s p _ c a x H Hi _ Hp X1 (Hev x X1 X2)).
          intros y Hy. apply forecast_time in Hy. lia. }
        pose proof (forecast_farthest (v :: l) t c x (S k) NL) as F.
        cbn [requests map] in F. fold (requests l) in F. rewrite !soon_cons, Hv in F.
        rewrite (proj2 (Nat.eqb_neq c b) ncb), (proj2 (Nat.eqb_neq x b) nx) in F. cbn [orb] in F. auto.
      * intros x. destruct (Nat.eq_dec x b) as [->|n].
        -- split; [auto|intros _; exact IB].
        -- rewrite !in_internal, A1. destruct (Nat.eq_dec x c) as [->|nc].
           ++ rewrite Hc. intuition congruence.
           ++ destruct (A2 x n) as [->|(_ & _ & _ & _ & _ & a' & Hp')]; [|congruence]. intuition.
Qed.

Lemma accesses_keep b acc : forall s s1 rs, run pick dflt s (map (access_op b) acc) = Ok (s1, rs) ->
  blk s1 = blk s /\ nblk s1 = nblk s /\ al s1 = al s /\ reads pick dflt s (map (access_op b) acc) = 0.
Proof.
  induction acc as [|a acc IH]; intros s s1 rs E; cbn [map run reads] in *.
  - injection E as <- <-. auto.
  - destruct (do pick dflt s (access_op b a)) as [(s2, x)| |] eqn:Ed; cbn [bind] in E; try discriminate.
    destruct (run pick dflt s2 (map (access_op b) acc)) as [(s3, xs)| |] eqn:Er; cbn [bind] in E; try discriminate.
    injection E as <- <-. destruct (IH _ _ _ Er) as (I1 & I2 & I3 & I4). rewrite I1, I2, I3, I4.
    destruct a; cbn [access_op do] in Ed; destruct (access s b); cbn [bind] in Ed; try discriminate;
      injection Ed as <- <-; auto.
Qed.

Lemma accesses_view b acc : forall p rs, length rs = length acc -> simu p = false ->
  let p1 := after_all p (combine (map (access_op b) acc) rs) in
  simu p1 = false /\ (forall c, c <> b -> vw p1 c = vw p c) /\
  refs (vw p1 b) = refs (vw p b) /\ val (vw p1 b) = val (vw p b) /\ drt (vw p1 b) = drt (vw p b).
Proof.
  induction acc as [|a acc IH]; intros p [|r rs] E Ep; try discriminate; cbn [map combine after_all]; [auto 10|].
  destruct a as [z|]; cbn [access_op after]; [|apply IH; [cbn in E; lia|assumption]].
  destruct (IH (set_vw p b (mkV (val (vw p b)) (refs (vw p b)) z (drt (vw p b)) true)) rs) as (I1 & I2 & I3 & I4 & I5);
    [cbn in E; lia|assumption|].
  split; [exact I1|]. split; [intros c n; rewrite I2 by assumption; cbn; apply upd_other; assumption|].
  rewrite I3, I4, I5. cbn. rewrite upd_same. auto.
Qed.

Lemma reads_app ops1 : forall s s1 rs ops2, run pick dflt s ops1 = Ok (s1, rs) ->
  reads pick dflt s (ops1 ++ ops2) = reads pick dflt s ops1 + reads pick dflt s1 ops2.
Proof.
  induction ops1 as [|o ops1 IH]; intros s s1 rs ops2 E; cbn [app run reads] in *.
  - injection E as <- <-. reflexivity.
  - destruct (do pick dflt s o) as [(s2, x)| |]; cbn [bind] in E; try discriminate.
    destruct (run pick dflt s2 ops1) as [(s3, xs)| |] eqn:Er; cbn [bind] in E; try discriminate.
    injection E as <- <-. rewrite (IH _ _ _ _ Er). lia.
Qed.

Lemma R_step max s p o s1 r : R max [] [] s p -> legal p o -> do pick dflt s o = Ok (s1, r) ->
  R max [] [] s1 (after p o r) /\ allowed dflt p o r.
Proof.
  intros H L E. destruct (do_ok pick dflt Fresh max s p _ H L) as [(s1' & r' & E' & A & H')|(b' & un & _ & E' & _)]; [|congruence].
  rewrite E in E'. injection E' as <- <-. auto.
Qed.

(** release keeps the internal block if the block holds a value. *)
Lemma release_keeps max s p b d s1 r : R max [] [] s p -> legal p (Rel b d) -> simu p = false ->
  val (vw p b) <> None -> do pick dflt s (Rel b d) = Ok (s1, r) ->
  nblk s1 = nblk s /\ forall c, is_internal (blk s1 c) = is_internal (blk s c).
Proof.
  intros H (Lb & [L|(Lr & _)]) Ep Hv E; [congruence|].
  pose proof (R_rel _ _ _ _ _ H b Lb) as (Er & Br).
  assert (Ei : exists i, int (blk s b) = Some i) by (destruct (int (blk s b)); [eauto|lia]).
  destruct Ei as (i & Ei). rewrite Ei in Br. destruct Br as (_ & Br). destruct (Br Lr) as (_ & _ & _ & Bx & _).
  assert (Q : forall s0 ins s2, blk s0 = blk s -> nblk s0 = nblk s -> release_with pick s0 b d ins = Ok s2 ->
     nblk s2 = nblk s /\ forall c, is_internal (blk s2 c) = is_internal (blk s c)).
  { intros s0 ins s2 E0 En K. unfold release_with in K. rewrite E0 in K.
    destruct (is_acquired (blk s b)); cbn [negb] in K; [|discriminate].
    assert (G : forall s3, blk s3 = upd (blk s) b (mkSb (ext (blk s b)) (int (blk s b)) (d || dirty (blk s b)) (rc (blk s b) - 1)) ->
       forall c, is_internal (blk s3 c) = is_internal (blk s c)).
    { intros s3 E3 c. rewrite E3. unfold upd. destruct (Nat.eqb_spec c b) as [->|n]; reflexivity. }
    destruct (is_acquired _).
    - injection K as <-. split; [exact En|]. apply G. cbn. rewrite E0. reflexivity.
    - assert (Z0 : (dirty (mkSb (ext (blk s b)) (int (blk s b)) (d || dirty (blk s b)) (rc (blk s b) - 1)) ||
                  is_external (mkSb (ext (blk s b)) (int (blk s b)) (d || dirty (blk s b)) (rc (blk s b) - 1)))%bool = true).
      { unfold is_external, has_external. cbn. destruct d; [reflexivity|]. cbn.
        destruct (dirty (blk s b)) eqn:Ed; [reflexivity|]. cbn. specialize (Bx eq_refl).
        destruct (ext (blk s b)); [reflexivity|]. cbn in Bx. congruence. }
      rewrite Z0 in K. injection K as <-. split; [exact En|]. apply G. cbn. rewrite E0. reflexivity. }
  cbn [do] in E. destruct (release pick s b d) as [s2| |] eqn:Ee; cbn [bind] in E; try discriminate. injection E as <- <-.
  unfold release in Ee. destruct (b <? nblk s); cbn [negb] in Ee; [|discriminate].
  destruct (al s) as [q|k m|q [|t nu]] eqn:El.
  - eapply Q; [| |exact Ee]; reflexivity.
  - rewrite (R_simu _ _ _ _ _ H), El in Ep. discriminate.
  - eapply Q; [| |exact Ee]; reflexivity.
  - destruct (release_with pick s b d _) as [s3| |] eqn:E3; cbn [bind] in Ee; try discriminate.
    destruct (Q _ _ _ eq_refl eq_refl E3) as (Q1 & Q2).
    destruct (al s3) as [| |q1 [|t1 nu1]]; try discriminate. injection Ee as <-. auto.
Qed.

(** A visit. *)
Lemma visit_base max s p v s1 rs : R max [] [] s p -> simu p = false ->
  (forall c, refs (vw p c) = 0) -> val (vw p (v_blk v)) <> None ->
  run pick dflt s (visit_ops v) = Ok (s1, rs) -> legal_run p (combine (visit_ops v) rs) ->
  let p1 := after_all p (combine (visit_ops v) rs) in
  R max [] [] s1 p1 /\ simu p1 = false /\ (forall c, refs (vw p1 c) = 0) /\
  (forall c, val (vw p c) <> None -> val (vw p1 c) <> None) /\
  (exists s2 x, do pick dflt s (Acq (v_blk v) false) = Ok (s2, x) /\ legal p (Acq (v_blk v) false) /\
                internal_blocks s1 = internal_blocks s2) /\
  reads pick dflt s (visit_ops v) = if mem_nat (v_blk v) (internal_blocks s) then 0 else 1.
Proof.
  intros H Ep Hz Hv E L.
  pose proof (proj1 (run_R pick dflt Fresh _ _ _ _ _ _ H E L)) as HR.
  split; [exact HR|].
  unfold visit_ops in E, L |- *. set (b := v_blk v) in *.
  cbn [run] in E. destruct (do pick dflt s (Acq b false)) as [(s2, x)| |] eqn:Ed; cbn [bind] in E; try discriminate.
  destruct (run pick dflt s2 _) as [(s3, xs)| |] eqn:Er; cbn [bind] in E; try discriminate.
  injection E as <- <-. cbn [combine legal_run after_all] in L |- *. destruct L as (L1 & L2).
  destruct (R_step _ _ _ _ _ _ H L1 Ed) as (H2 & A2).
  destruct (run_app _ _ _ _ _ _ _ Er) as (s4 & rs1 & rs2 & E4 & E5 & ->).
  pose proof (run_length _ _ _ _ _ _ E4) as Ln1.
  rewrite combine_app in L2 |- * by (symmetry; exact Ln1).
  rewrite after_all_app. apply legal_run_app in L2. destruct L2 as (L2 & L3).
  pose proof (proj1 (run_R pick dflt Fresh _ _ _ _ _ _ H2 E4 L2)) as H4.
  cbn [run] in E5. destruct (do pick dflt s4 (Rel b (v_dirty v))) as [(s5, y)| |] eqn:Ed5; cbn [bind] in E5; try discriminate.
  injection E5 as <- <-. cbn [combine legal_run after_all] in L3 |- *. destruct L3 as (L3 & _).
  (* the views *)
  destruct A2 as [A2|(dd & -> & _)]; [congruence|].
  set (p2 := after p (Acq b false) (RData dd)) in *.
  assert (P2 : simu p2 = false /\ (forall c, c <> b -> vw p2 c = vw p c) /\ refs (vw p2 b) = 1 /\ val (vw p2 b) = val (vw p b) /\ drt (vw p2 b) = false).
  { unfold p2. cbn [after]. rewrite Ep, (Hz b). cbn. rewrite Ep. split; [reflexivity|].
    split; [intros c n; apply upd_other; assumption|]. rewrite upd_same. auto. }
  destruct P2 as (P21 & P22 & P23 & P24 & P25).
  destruct (accesses_view b (v_acc v) p2 rs1) as (P31 & P32 & P33 & P34 & P35); [rewrite map_length in Ln1; exact Ln1|exact P21|].
  set (p3 := after_all p2 (combine (map (access_op b) (v_acc v)) rs1)) in *.
  assert (Hv3 : val (vw p3 b) <> None) by (rewrite P34, P24; exact Hv).
  assert (P4 : simu (after p3 (Rel b (v_dirty v)) y) = false /\
     (forall c, c <> b -> vw (after p3 (Rel b (v_dirty v)) y) c = vw p c) /\
     refs (vw (after p3 (Rel b (v_dirty v)) y) b) = 0 /\ val (vw (after p3 (Rel b (v_dirty v)) y) b) <> None).
  { cbn [after]. rewrite P31, P33, P23. cbn. rewrite P31. split; [reflexivity|].
    split; [intros c n; rewrite upd_other by assumption; rewrite P32, P22 by assumption; reflexivity|].
    rewrite upd_same. cbn. split; [reflexivity|]. rewrite P35, P25, orb_false_r. destruct (v_dirty v); [discriminate|exact Hv3]. }
  destruct P4 as (P41 & P42 & P43 & P44).
  split; [exact P41|]. split; [intros c; destruct (Nat.eq_dec c b) as [->|n]; [exact P43|rewrite P42 by assumption; apply Hz]|].
  split; [intros c Hc; destruct (Nat.eq_dec c b) as [->|n]; [exact P44|rewrite P42 by assumption; exact Hc]|].
  destruct (accesses_keep _ _ _ _ _ E4) as (K1 & K2 & K3 & K4).
  destruct (release_keeps _ _ _ _ _ _ _ H4 L3 P31 Hv3 Ed5) as (K5 & K6).
  split.
  - assert (Ein : internal_blocks s5 = internal_blocks s2).
    { unfold internal_blocks, those. rewrite K5, K2. apply filter_ext. intros c. rewrite K6, K1. reflexivity. }
    eauto.
  - cbn [reads]. rewrite Ed, (reads_app _ _ _ _ _ E4), K4. cbn [reads]. rewrite Ed5. cbn [reads_disk]. rewrite !Nat.add_0_r.
    assert (Hb : b < nblk s) by (apply (R_live _ _ _ _ _ H); exact L1).
    destruct (is_internal (blk s b)) eqn:Eb.
    + rewrite (proj2 (mem_nat_In b _)); [reflexivity|]. apply in_internal. auto.
    + rewrite (proj2 (mem_nat_false b _)); [|rewrite in_internal; intuition congruence].
      pose proof (R_rel _ _ _ _ _ H b L1) as (_ & Br). unfold is_internal in Eb.
      destruct (int (blk s b)); [discriminate|]. destruct Br as (_ & Bd & Bv).
      unfold is_external, has_external. rewrite Bd. destruct (ext (blk s b)); [reflexivity|]. cbn in Bv. congruence.
Qed.


Lemma visit_step max s p v l t s1 rs : R max [] [] s p -> simu p = false ->
  (forall c, refs (vw p c) = 0) -> val (vw p (v_blk v)) <> None ->
  (Z.of_nat (t + length (v :: l)) < 2 ^ 62 - 1)%Z ->
  lfd_inv s (forecast t (v :: l)) ->
  run pick dflt s (visit_ops v) = Ok (s1, rs) -> legal_run p (combine (visit_ops v) rs) ->
  lfd_inv s1 (forecast (S t) l) /\
  lfd_next max (internal_blocks s) (v_blk v) (requests l) (internal_blocks s1).
Proof.
  intros H Ep Hz Hv Ht Hi E L.
  split.
  - refine (lfd_run pick dflt Fresh max (visit_ops v) s p s1 rs
       [mkPse op_acquire (v_blk v) t; mkPse (if v_dirty v then op_release_dirty else op_release) (v_blk v) (S t)]
       (forecast (S t) l) H Ep E L _ _ _).
    + unfold visit_ops. cbn [forallb no_switch]. rewrite forallb_app. cbn. rewrite andb_true_r. cbn.
      rewrite forallb_forall. intros o Ho. apply in_map_iff in Ho. destruct Ho as ([z|] & <- & _); reflexivity.
    + unfold visit_ops, entries. cbn [map pop pid flat_map predicts app]. rewrite flat_map_app. cbn [flat_map predicts app].
      f_equal. assert (Z0 : flat_map predicts (map (access_op (v_blk v)) (v_acc v)) = []).
      { induction (v_acc v) as [|[z|] a IH]; cbn; auto. }
      rewrite Z0. reflexivity.
    + exact Hi.
  - destruct (visit_base max s p v s1 rs H Ep Hz Hv E L) as (_ & _ & _ & _ & (s2 & x & Ed & L1 & ->) & _).
    eapply acquire_next; eauto.
Qed.

(** Whatever the algorithm is, its run is one of the ways of serving the requests. *)
Lemma visit_served max s p v s1 rs : R max [] [] s p -> simu p = false ->
  (forall c, refs (vw p c) = 0) -> val (vw p (v_blk v)) <> None ->
  run pick dflt s (visit_ops v) = Ok (s1, rs) -> legal_run p (combine (visit_ops v) rs) ->
  length (internal_blocks s1) <= max /\ In (v_blk v) (internal_blocks s1) /\
  loaded (internal_blocks s) (internal_blocks s1) = reads pick dflt s (visit_ops v).
Proof.
  intros H Ep Hz Hv E L.
  destruct (visit_base max s p v s1 rs H Ep Hz Hv E L) as (HR & _ & _ & _ & (s2 & x & Ed & L1 & Ei) & Er).
  pose proof (R_counts pick _ _ _ HR) as (C1 & C2 & _ & _).
  assert (Es : is_sim (al s) = false) by (rewrite <- (R_simu _ _ _ _ _ H); assumption).
  assert (Hb : v_blk v < nblk s) by (apply (R_live _ _ _ _ _ H); exact L1).
  split; [lia|]. rewrite Ei, Er. set (b := v_blk v) in *.
  cbn [do] in Ed. destruct (acquire pick dflt s b false) as [(s3, i)| |] eqn:Ea; cbn [bind] in Ed; try discriminate.
  injection Ed as <- <-. destruct (acquire_effect pick dflt _ _ _ _ _ Ea) as (A1 & A2 & A3 & A4 & A5).
  destruct (A4 Es) as (A6 & _).
  assert (IB : In b (internal_blocks s3)) by (apply in_internal; rewrite A1; auto).
  split; [exact IB|].
  assert (Q : forall y, y <> b -> In y (internal_blocks s3) -> In y (internal_blocks s)).
  { intros y n Hy. apply in_internal in Hy. rewrite A1 in Hy. apply in_internal.
    destruct (A2 y n) as [<-|(_ & _ & _ & K & _)]; [assumption|].
    destruct Hy as (_ & Hy). unfold is_internal in Hy. rewrite K in Hy. discriminate. }
  unfold loaded. destruct (mem_nat b (internal_blocks s)) eqn:Em.
  - rewrite (proj2 (length_zero_iff_nil _)); [reflexivity|].
    destruct (filter _ (internal_blocks s3)) as [|y r] eqn:Ef; [reflexivity|exfalso].
    assert (K : In y (filter (fun x => negb (mem_nat x (internal_blocks s))) (internal_blocks s3))) by (rewrite Ef; left; reflexivity).
    apply filter_In in K. destruct K as (K1 & K2). apply negb_true_iff in K2.
    destruct (Nat.eq_dec y b) as [->|n]; [congruence|]. apply (Q y n), mem_nat_In in K1. congruence.
  - change 1 with (length [b]). apply Permutation_length. apply NoDup_Permutation.
    + apply NoDup_filter, internal_NoDup.
    + constructor; [auto|constructor].
    + intros y. rewrite filter_In. cbn. split.
      * intros (K1 & K2). destruct (Nat.eq_dec y b) as [->|n]; [auto|]. apply (Q y n), mem_nat_In in K1. rewrite K1 in K2. discriminate.
      * intros [<-|[]]. rewrite Em. auto.
Qed.

Lemma program_served max l : forall s p s1 rs, R max [] [] s p -> simu p = false ->
  (forall c, refs (vw p c) = 0) -> (forall b, In b (requests l) -> val (vw p b) <> None) ->
  run pick dflt s (program l) = Ok (s1, rs) -> legal_run p (combine (program l) rs) ->
  served max (internal_blocks s) (requests l) (reads pick dflt s (program l)).
Proof.
  induction l as [|v l IH]; intros s p s1 rs H Ep Hz Hv E L.
  - constructor.
  - cbn [program flat_map] in E, L |- *. fold (program l) in E, L |- *.
    destruct (run_app _ _ _ _ _ _ _ E) as (s2 & rs1 & rs2 & E1 & E2 & ->).
    rewrite combine_app in L by (symmetry; eapply run_length; exact E1).
    apply legal_run_app in L. destruct L as (L1 & L2).
    destruct (visit_base max s p v s2 rs1 H Ep Hz (Hv _ (or_introl eq_refl)) E1 L1) as (V1 & V2 & V3 & V4 & _ & _).
    destruct (visit_served max s p v s2 rs1 H Ep Hz (Hv _ (or_introl eq_refl)) E1 L1) as (W1 & W2 & W3).
    rewrite (reads_app _ _ _ _ _ E1), <- W3. cbn [requests map]. fold (requests l).
    apply served_cons; [apply internal_NoDup|exact W1|exact W2|].
    eapply IH; try eassumption. intros b Hb. apply V4. apply Hv. right. assumption.
Qed.

(** The run of a program. *)
Lemma lfd_program max l : forall t s p s1 rs, R max [] [] s p -> simu p = false ->
  (forall c, refs (vw p c) = 0) -> (forall b, In b (requests l) -> val (vw p b) <> None) ->
  (Z.of_nat (t + length l) < 2 ^ 62 - 1)%Z -> lfd_inv s (forecast t l) ->
  run pick dflt s (program l) = Ok (s1, rs) -> legal_run p (combine (program l) rs) ->
  lfd_serves max (internal_blocks s) (requests l) (reads pick dflt s (program l)).
Proof.
  induction l as [|v l IH]; intros t s p s1 rs H Ep Hz Hv Ht Hi E L.
  - constructor.
  - cbn [program flat_map] in E, L |- *. fold (program l) in E, L |- *.
    destruct (run_app _ _ _ _ _ _ _ E) as (s2 & rs1 & rs2 & E1 & E2 & ->).
    rewrite combine_app in L by (symmetry; eapply run_length; exact E1).
    apply legal_run_app in L. destruct L as (L1 & L2).
    destruct (visit_base max s p v s2 rs1 H Ep Hz (Hv _ (or_introl eq_refl)) E1 L1) as (V1 & V2 & V3 & V4 & _ & V7).
    destruct (visit_step max s p v l t s2 rs1 H Ep Hz (Hv _ (or_introl eq_refl)) Ht Hi E1 L1) as (V5 & V6).
    rewrite (reads_app _ _ _ _ _ E1), V7. cbn [requests map]. fold (requests l).
    eapply lfd_cons; [exact V6|]. eapply (IH (S t)); try eassumption.
    + intros b Hb. apply V4. apply Hv. right. assumption.
    + cbn [length] in Ht. lia.
Qed.

(** ** The simulation records the forecast *)

Lemma sim_records l : forall s k m s1 rs, al s = Sim k m -> run pick dflt s (sim_program l) = Ok (s1, rs) ->
  exists m1, al s1 = Sim k m1 /\ pseq m1 = pseq m ++ forecast (time m) l.
Proof.
  induction l as [|v l IH]; intros s k m s1 rs Ha E.
  - cbn in E. injection E as <- <-. exists m. cbn. rewrite app_nil_r. auto.
  - cbn [sim_program flat_map app run do] in E. fold (sim_program l) in E. unfold acquire in E.
    destruct (v_blk v <? nblk s) eqn:Eb; cbn [negb bind] in E; [|discriminate]. rewrite Ha in E. cbn [bind] in E.
    unfold release in E. cbn [nblk set_al al] in E. rewrite Eb in E. cbn [negb bind] in E.
    match type of E with context [run pick dflt ?s2 _] => destruct (run pick dflt s2 (sim_program l)) as [(s3, xs)| |] eqn:Er end;
      cbn [bind] in E; try discriminate. injection E as <- <-.
    edestruct IH as (m1 & I1 & I2); [|exact Er|]; [cbn [al set_al]; reflexivity|].
    exists m1. split; [exact I1|]. rewrite I2. cbn. rewrite <- !app_assoc. reflexivity.
Qed.

End Run.
