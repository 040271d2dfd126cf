(** The queue of the LFD algorithm. *)
From Coq Require Import ZArith List Bool Lia Permutation Arith Sorted.
From Verif Require Import BsModel BsSpec BsProofs BsProofs2 BsProofs3 BsProofs4 BsProofs5.
Import ListNotations.

Definition desc (q : list (Z * nat)) : Prop := StronglySorted (fun x y => (fst y <= fst x)%Z) q.

Lemma before_true x y : before x y = true -> (fst y <= fst x)%Z.
Proof.
  unfold before. destruct (Z.ltb_spec (fst y) (fst x)); [lia|]. cbn.
  destruct (Z.ltb_spec (fst x) (fst y)); cbn; [discriminate|lia].
Qed.
Lemma before_false x y : before x y = false -> (fst x <= fst y)%Z.
Proof. unfold before. destruct (Z.ltb_spec (fst y) (fst x)); [discriminate|lia]. Qed.

Lemma desc_put x q : desc q -> desc (pq_put x q).
Proof.
  induction 1 as [|y q S1 IH F]; cbn; [constructor; constructor|].
  rewrite Forall_forall in F. destruct (before x y) eqn:E.
  - apply before_true in E. constructor; [constructor; [assumption|apply Forall_forall; exact F]|].
    apply Forall_forall. intros z [<-|Hz]; [assumption|]. specialize (F z Hz). lia.
  - apply before_false in E. constructor; [assumption|]. apply Forall_forall. intros z Hz.
    apply (Permutation_in _ (pq_put_perm x q)) in Hz. destruct Hz as [<-|Hz]; auto.
Qed.

Lemma desc_filter f q : desc q -> desc (filter f q).
Proof.
  induction 1 as [|y q S1 IH F]; cbn; [constructor|]. destruct (f y); [|assumption].
  constructor; [assumption|]. rewrite Forall_forall in *. intros z Hz. apply filter_In in Hz. apply F. tauto.
Qed.

Lemma desc_insert q b z : desc q -> desc (pq_insert q b z).
Proof. intros H. apply desc_put. apply desc_filter. assumption. Qed.

Lemma insert_in q b z x : In x (pq_insert q b z) -> x = (z, b) \/ In x q.
Proof.
  unfold pq_insert. intros H. apply (Permutation_in _ (pq_put_perm _ _)) in H.
  destruct H as [<-|H]; [auto|]. apply filter_In in H. tauto.
Qed.

Lemma scan_next ps b :
  match next_acquire ps b with
  | Some t => fst (lfd_scan ps) b = (true, t)
  | None => exists k, fst (lfd_scan ps) b = (false, k)
  end.
Proof.
  induction ps as [|x ps IH]; cbn; [eauto|].
  destruct (lfd_scan ps) as [f nu]. cbn in IH.
  destruct (Nat.eqb_spec (pid x) b) as [<-|n].
  - destruct (pop x); cbn; rewrite ?upd_same; eauto.
  - destruct (pop x); cbn; rewrite ?upd_other by auto; exact IH.
Qed.

Lemma next_time ps b t : next_acquire ps b = Some t -> exists x, In x ps /\ ptime x = t.
Proof.
  induction ps as [|x ps IH]; cbn; [discriminate|].
  destruct (pid x =? b).
  - destruct (pop x); intros H; try discriminate; try (injection H as <-; eauto);
      destruct (IH H) as (y & H1 & H2); eauto.
  - intros H. destruct (IH H) as (y & H1 & H2). eauto.
Qed.

Lemma prio_true B t : (Z.of_nat t < 2 ^ 62 - 1)%Z ->
  (4 * Z.of_nat t <= priority B (true, t) <= 4 * Z.of_nat t + 3)%Z.
Proof.
  intros H. unfold priority. cbn [fst snd]. unfold wrap. change (2 ^ 62 - 1)%Z with 4611686018427387903%Z in H.
  change (2 ^ 64)%Z with 18446744073709551616%Z. rewrite Z.mod_small by lia.
  destruct (dirty B), (has_external B); cbn [negb Z.b2z]; lia.
Qed.

Lemma prio_false B k : (2 ^ 64 - 4 <= priority B (false, k))%Z.
Proof. unfold priority. cbn [fst snd]. change (wrap ((2 ^ 64 - 1) * 4))%Z with (2 ^ 64 - 4)%Z. lia. Qed.

Lemma prio_order ps b c B C :
  (forall x, In x ps -> (Z.of_nat (ptime x) < 2 ^ 62 - 1)%Z) ->
  (priority B (fst (lfd_scan ps) b) <= priority C (fst (lfd_scan ps) c))%Z ->
  not_later (next_acquire ps b) (next_acquire ps c).
Proof.
  intros T H. pose proof (scan_next ps b) as Sb. pose proof (scan_next ps c) as Sc.
  destruct (next_acquire ps c) as [u|] eqn:Ec; [|destruct (next_acquire ps b); exact I].
  destruct (next_time _ _ _ Ec) as (x & Hx & <-). specialize (T x Hx) as Tx.
  rewrite Sc in H. pose proof (prio_true C _ Tx) as Pc.
  destruct (next_acquire ps b) as [t|] eqn:Eb; cbn.
  - destruct (next_time _ _ _ Eb) as (y & Hy & <-). specialize (T y Hy) as Ty.
    rewrite Sb in H. pose proof (prio_true B _ Ty) as Pb. lia.
  - destruct Sb as (k & Sb). rewrite Sb in H. pose proof (prio_false B k). lia.
Qed.

Definition lfd_inv (s : st) (ps : list pse) : Prop :=
  exists q, al s = Lfd q (snd (lfd_scan ps)) /\ desc q /\
    forall z b, In (z, b) q -> exists B, z = priority B (fst (lfd_scan ps) b).

Lemma lfd_fold (g : nat -> Z) l : forall q, desc q -> (forall z b, In (z, b) q -> z = g b) ->
  let r := fold_left (fun q b => pq_insert q b (g b)) l q in
  desc r /\ forall z b, In (z, b) r -> z = g b.
Proof.
  induction l as [|x l IH]; intros q H1 H2; cbn [fold_left]; [auto|].
  apply IH; [apply desc_insert; assumption|].
  intros z b Hi. apply insert_in in Hi. destruct Hi as [E|Hi]; [congruence|auto].
Qed.

Lemma lfd_start s ps : lfd_inv (to_lfd s ps) ps.
Proof.
  unfold lfd_inv, to_lfd. destruct (lfd_scan ps) as [f nu]. cbn [fst snd al set_al].
  destruct (lfd_fold (fun b => priority (blk s b) (f b)) (evictables (al s)) []) as (I1 & I2).
  - constructor.
  - contradiction.
  - eexists. split; [reflexivity|]. split; [exact I1|]. intros z b H. exists (blk s b). apply I2. assumption.
Qed.

Section Ops.
Variable pick : nat -> list nat -> nat.
Variable dflt : option Z.

Lemma flush_lfd n : forall s s1 q nu, flush pick n s = Ok s1 -> al s = Lfd q nu -> al s1 = Lfd [] nu.
Proof.
  induction n as [|n IH]; intros s s1 q nu; cbn; intros E El; rewrite El in E; cbn in E;
    destruct q as [|(z, c) q]; try discriminate.
  - injection E as <-. assumption.
  - injection E as <-. assumption.
  - destruct (clean pick (set_al s (Lfd q nu)) c) as [s2| |] eqn:Ec; cbn [bind] in E; try discriminate.
    destruct (detach pick s2 c) as [(s3, i)| |] eqn:Ed; cbn [bind] in E; try discriminate.
    destruct (clean_effect _ _ _ _ Ec) as (C1 & C2 & C3 & C4 & C5).
    destruct (detach_effect _ _ _ _ _ Ed) as (D1 & D2 & D3 & D4 & D5 & D6).
    eapply IH; [exact E|]. cbn. rewrite D5, C4. reflexivity.
Qed.

Lemma get_block_lfd s s1 i q nu : get_block pick s = Ok (s1, i) -> al s = Lfd q nu ->
  al s1 = Lfd q nu \/ exists c r, q = c :: r /\ al s1 = Lfd r nu.
Proof.
  unfold get_block. intros E El. destruct (get_free s) as [(s2, j)|] eqn:Eg.
  - injection E as <- <-. left. rewrite <- El. unfold get_free in Eg. destruct (free_i s).
    + destruct (0 <? remaining s); [|discriminate]. cbv zeta in Eg.
      revert Eg. generalize (Nat.min alloc_at_once (remaining s)). intros n Eg. injection Eg as <- <-. reflexivity.
    + injection Eg as <- <-. reflexivity.
  - rewrite El in E. cbn in E. destruct q as [|(z, c) q]; [discriminate|].
    destruct (detach_effect _ _ _ _ _ E) as (D1 & D2 & D3 & D4 & D5 & D6).
    right. exists (z, c), q. rewrite D5. auto.
Qed.

Definition is_rel (o : op) : bool := match o with Rel _ _ => true | _ => false end.

(** The queue after an operation that does not switch. *)
Lemma lfd_step s o s1 r q nu : do pick dflt s o = Ok (s1, r) -> al s = Lfd q nu -> no_switch o = true ->
  is_rel o = false ->
  exists q1, al s1 = Lfd q1 nu /\ (desc q -> desc q1) /\ (forall x, In x q1 -> In x q).
Proof.
  intros E El Hs Hr. destruct o; cbn [do] in E; try discriminate.
  - destruct (acquire pick dflt s b un) as [(s2, i)| |] eqn:Ea; cbn [bind] in E; try discriminate.
    injection E as <- <-. unfold acquire in Ea. destruct (b <? nblk s); cbn [negb] in Ea; [|discriminate].
    rewrite El in Ea. destruct (int (blk s b)) as [j|].
    + injection Ea as <- <-. destruct (is_acquired (blk s b)); cbn; rewrite ?El; cbn; eauto 10.
      eexists. split; [reflexivity|]. split; [apply desc_filter|]. intros x Hx. apply filter_In in Hx. tauto.
    + destruct (get_block pick s) as [(s3, k)| |] eqn:Eg; cbn [bind] in Ea; try discriminate.
      assert (Q : al s2 = al s3).
      { destruct (sb_initialized (blk s3 b)); [destruct un; [|destruct (ext (blk s3 b)) as [e|]; [|discriminate]]|
          destruct dflt as [z|]; [destruct un|]]; injection Ea as <- <-; reflexivity. }
      rewrite Q. destruct (get_block_lfd _ _ _ _ _ Eg El) as [G|(c & r0 & -> & G)]; rewrite G; eauto 10.
      eexists. split; [reflexivity|]. split; [intros D; inversion D; assumption|]. intros x Hx. right; assumption.
  - destruct (deinitialize s b) as [s2| |] eqn:Er; cbn [bind] in E; try discriminate. injection E as <- <-.
    unfold deinitialize in Er. destruct (b <? nblk s); cbn [negb] in Er; [|discriminate]. rewrite El in Er.
    destruct (is_acquired (blk s b)); [discriminate|]. injection Er as <-.
    destruct (ext (blk s b)), (is_evictable (blk s b)), (int (blk s b)); cbn; rewrite ?El; cbn; eauto 10;
    (eexists; split; [reflexivity|]; split; [apply desc_filter|]; intros x Hx; apply filter_In in Hx; tauto).
  - destruct (initialize s b e) as [s2| |] eqn:Er; cbn [bind] in E; try discriminate. injection E as <- <-.
    unfold initialize in Er. destruct (b <? nblk s); cbn [negb] in Er; [|discriminate]. rewrite El in Er.
    destruct (sb_initialized (blk s b)); [discriminate|]. injection Er as <-. cbn. eauto.
  - destruct (extract pick s b) as [(s2, x)| |] eqn:Er; cbn [bind] in E; try discriminate. injection E as <- <-.
    unfold extract in Er. destruct (b <? nblk s); cbn [negb] in Er; [|discriminate]. rewrite El in Er. cbv zeta in Er.
    assert (Q : exists q1, al (if is_evictable (blk s b) then set_al s (erase_evictable (Lfd q nu) b) else s) = Lfd q1 nu /\
       (desc q -> desc q1) /\ (forall x, In x q1 -> In x q)).
    { destruct (is_evictable (blk s b)); cbn; rewrite ?El; eauto.
      eexists. split; [reflexivity|]. split; [apply desc_filter|]. intros y Hx. apply filter_In in Hx. tauto. }
    destruct Q as (q1 & Q1 & Q2).
    set (s0 := if is_evictable (blk s b) then set_al s (erase_evictable (Lfd q nu) b) else s) in *. clearbody s0.
    destruct (is_internal (blk s b)).
    + destruct (detach pick _ b) as [(s3, i)| |] eqn:Ed; cbn [bind] in Er; try discriminate.
      injection Er as <- <-. destruct (detach_effect _ _ _ _ _ Ed) as (_ & _ & _ & _ & D & _).
      cbn [al set_b return_free set_free_i]. rewrite D, Q1. exists q1. intuition.
    + cbn [bind] in Er. injection Er as <- <-. cbn [al set_b return_free set_free_i]. rewrite Q1. exists q1. intuition.
  - destruct (is_initialized s b); cbn [bind] in E; try discriminate. injection E as <- <-. eauto.
  - unfold allocate in E. destruct (free_s s); injection E as <- <-; cbn; rewrite El; eauto.
  - unfold free_block in E. destruct (deinitialize s b) as [s2| |] eqn:Er; cbn [bind] in E; try discriminate.
    injection E as <- <-. cbn [al set_free_s].
    unfold deinitialize in Er. destruct (b <? nblk s); cbn [negb] in Er; [|discriminate]. rewrite El in Er.
    destruct (is_acquired (blk s b)); [discriminate|]. injection Er as <-.
    destruct (ext (blk s b)), (is_evictable (blk s b)), (int (blk s b)); cbn; rewrite ?El; cbn; eauto 10;
    (eexists; split; [reflexivity|]; split; [apply desc_filter|]; intros x Hx; apply filter_In in Hx; tauto).
  - destruct (flush pick _ s) as [s2| |] eqn:Ef; cbn [bind] in E; try discriminate. injection E as <- <-.
    rewrite (flush_lfd _ _ _ _ _ Ef El). eexists. split; [reflexivity|]. split; [constructor|contradiction].
  - injection E as <- <-. rewrite El. rewrite El. eauto.
  - destruct (access s b); cbn [bind] in E; try discriminate. injection E as <- <-. cbn. eauto.
  - destruct (access s b); cbn [bind] in E; try discriminate. injection E as <- <-. cbn. eauto.
  - injection E as <- <-. cbn. eauto.
  - injection E as <- <-. cbn. eauto.
  - injection E as <- <-. cbn. eauto.
  - injection E as <- <-. cbn. eauto.
Qed.

Lemma lfd_rel s b d s1 r q t nu : do pick dflt s (Rel b d) = Ok (s1, r) -> al s = Lfd q (t :: nu) ->
  exists q1, al s1 = Lfd q1 nu /\ (desc q -> desc q1) /\
    (forall x, In x q1 -> In x q \/ exists B, x = (priority B t, b)).
Proof.
  cbn [do]. intros E El. destruct (release pick s b d) as [s2| |] eqn:Er; cbn [bind] in E; try discriminate.
  injection E as <- <-. unfold release in Er. destruct (b <? nblk s); cbn [negb] in Er; [|discriminate].
  rewrite El in Er. destruct (release_with pick s b d _) as [s3| |] eqn:E3; cbn [bind] in Er; try discriminate.
  destruct (release_with_effect _ _ _ _ _ _ E3) as (_ & _ & _ & [A|A]).
  - rewrite A, El in Er. injection Er as <-. exists q. cbn. eauto.
  - rewrite A in Er. injection Er as <-. eexists. cbn [al set_al]. split; [reflexivity|]. split; [apply desc_insert|].
    intros x Hx. apply insert_in in Hx. destruct Hx as [->|Hx]; eauto.
Qed.

Hypothesis Fresh : fresh_blocks pick.

Lemma in_queue max s p b : R max [] [] s p -> In b (evictables (al s)) ->
  live p b = true /\ refs (vw p b) = 0 /\ val (vw p b) <> None.
Proof.
  intros H Hb. apply (R_q _ _ _ _ _ H) in Hb. destruct Hb as (H1 & H2 & _).
  destruct (evictable_inv _ H2) as (Er & i & Ei).
  destruct (live p b) eqn:Lb.
  - pose proof (R_rel _ _ _ _ _ H b Lb) as Br. unfold brel in Br. rewrite Ei in Br.
    destruct Br as (E & Br & _). assert (E0 : refs (vw p b) = 0) by congruence.
    destruct (Br E0) as (K & _). repeat split; congruence.
  - destruct (R_new _ _ _ _ _ H b Lb) as (E & _). rewrite E in Ei. discriminate.
Qed.

Lemma lfd_op max s p o s1 r ps1 ps : R max [] [] s p -> simu p = false -> legal p o ->
  do pick dflt s o = Ok (s1, r) -> no_switch o = true -> entries ps1 = predicts o ->
  lfd_inv s (ps1 ++ ps) -> lfd_inv s1 ps.
Proof.
  intros H Ep L E Hs He (q & Q1 & Q2 & Q3).
  assert (H1 : R max [] [] s1 (after p o r)).
  { destruct (do_ok pick dflt Fresh max s p o H L) as [(s1' & r' & E' & _ & H')|(b & un & -> & E' & _)]; [|congruence].
    rewrite E in E'. injection E' as <- <-. exact H'. }
  assert (Qin : forall z c, In (z, c) q -> In c (evictables (al s))).
  { intros z c Hz. rewrite Q1. cbn. apply in_map_iff. exists (z, c). auto. }
  destruct (is_rel o) eqn:Eo.
  - destruct o; try discriminate. cbn in He. destruct ps1 as [|x [|? ?]]; try discriminate.
    unfold entries in He. injection He as Hp Hi. cbn [app] in *.
    assert (Es : lfd_scan (x :: ps) = (fst (lfd_scan ps), fst (lfd_scan ps) b :: snd (lfd_scan ps))).
    { cbn. destruct (lfd_scan ps) as [f nu]. rewrite Hp, Hi. destruct d; reflexivity. }
    rewrite Es in *. cbn [fst snd] in *.
    destruct (lfd_rel _ _ _ _ _ _ _ _ E Q1) as (q1 & A1 & A2 & A3).
    exists q1. split; [exact A1|]. split; [auto|]. intros z c Hz.
    destruct (A3 _ Hz) as [Hq|(B & HB)]; [auto|]. injection HB as -> ->. eauto.
  - destruct (lfd_step _ _ _ _ _ _ E Q1 Hs Eo) as (q1 & A1 & A2 & A3).
    assert (Q1in : forall z c, In (z, c) q1 -> In c (evictables (al s1))).
    { intros z c Hz. rewrite A1. cbn. apply in_map_iff. exists (z, c). auto. }
    destruct ps1 as [|x ps1].
    + exists q1. split; [exact A1|]. split; [auto|]. intros z c Hz. apply Q3. auto.
    + assert (Ep1 : ps1 = []) by (destruct o, ps1; cbn in He; try discriminate; reflexivity). subst ps1.
      cbn [app] in *.
      assert (Es : snd (lfd_scan (x :: ps)) = snd (lfd_scan ps) /\
                   forall c, c <> pid x -> fst (lfd_scan (x :: ps)) c = fst (lfd_scan ps) c).
      { cbn. destruct (lfd_scan ps) as [f nu].
        destruct o; cbn in He; try discriminate; injection He as Hp Hi; rewrite Hp; cbn;
          try (destruct un; cbn); split; auto; intros c n; apply upd_other; assumption. }
      destruct Es as (Es1 & Es2).
      exists q1. rewrite <- Es1. split; [exact A1|]. split; [auto|]. intros z c Hz.
      assert (n : c <> pid x).
      { intros ->. pose proof (do_ok pick dflt Fresh max s p o H L) as OK. specialize (Q1in _ _ Hz). specialize (Qin _ _ (A3 _ Hz)).
        pose proof (in_queue _ _ _ _ H1 Q1in) as (K1 & K2 & K3).
        pose proof (in_queue _ _ _ _ H Qin) as (J1 & J2 & J3).
        destruct o; cbn in He; try discriminate; injection He as Hp Hi; rewrite Hi in *; cbn in K1, K2, K3, L; try rewrite Ep in K1; try rewrite Ep in K2; try rewrite Ep in K3; try rewrite Ep in L.
        - (* acquire *)
          destruct OK as [(s1' & r' & E' & [A|(d & -> & A)] & _)|(b' & un' & E0 & E' & _)];
            [congruence| |congruence].
          rewrite E in E'. injection E' as <- ->. cbn in K2. rewrite upd_same, J2 in K2. cbn in K2. discriminate.
        - cbn [vw set_vw] in K3. rewrite upd_same in K3. cbn in K3. congruence.
        - destruct L as (_ & [L|(_ & L & _)]); [discriminate|congruence].
        - destruct OK as [(s1' & r' & E' & [A|A] & _)|(b' & un' & E0 & E' & _)];
            [congruence| |discriminate].
          rewrite E in E'. injection E' as <- ->. destruct (val (vw p b)); [|congruence].
          destruct A as (e & -> & _). cbn in K3. rewrite upd_same in K3. cbn in K3. congruence.
        - rewrite upd_same in K1. discriminate. }
      destruct (Q3 z c (A3 _ Hz)) as (B & HB). exists B. rewrite HB, Es2 by exact n. reflexivity.
Qed.

Lemma simu_no_switch p o r : no_switch o = true -> simu (after p o r) = simu p.
Proof.
  intros H. destruct o; try discriminate; cbn [after]; repeat match goal with
    | |- simu (if ?b then _ else _) = _ => destruct b eqn:?
    | |- simu (match ?x with _ => _ end) = _ => destruct x
    end; cbn; congruence.
Qed.

Lemma lfd_run max ops : forall s p s1 rs ps1 ps, R max [] [] s p -> simu p = false ->
  run pick dflt s ops = Ok (s1, rs) -> legal_run p (combine ops rs) -> forallb no_switch ops = true ->
  entries ps1 = flat_map predicts ops -> lfd_inv s (ps1 ++ ps) -> lfd_inv s1 ps.
Proof.
  induction ops as [|o ops IH]; intros s p s1 rs ps1 ps H Ep E L Hs He Hi; cbn [run] in E.
  - injection E as <- <-. destruct ps1; [exact Hi|discriminate].
  - destruct (do pick dflt s o) as [(s2, x)| |] eqn:Ed; cbn [bind] in E; try discriminate.
    destruct (run pick dflt s2 ops) as [(s3, xs)| |] eqn:Er; cbn [bind] in E; try discriminate.
    injection E as <- <-. cbn [combine legal_run] in L. destruct L as (L & Lr).
    cbn [forallb] in Hs. apply andb_prop in Hs. destruct Hs as (Ho & Hs).
    cbn [flat_map] in He.
    assert (Sp : exists p1 p2, ps1 = p1 ++ p2 /\ entries p1 = predicts o /\ entries p2 = flat_map predicts ops).
    { unfold entries in *. apply map_eq_app in He. destruct He as (p1 & p2 & -> & <- & <-). eauto. }
    destruct Sp as (p1 & p2 & -> & P1 & P2). rewrite <- app_assoc in Hi.
    assert (H2 : R max [] [] s2 (after p o x)).
    { destruct (do_ok pick dflt Fresh max s p o H L) as [(s1' & r' & E' & _ & H')|(b & un & -> & E' & _)]; [|congruence].
      rewrite Ed in E'. injection E' as <- <-. exact H'. }
    eapply IH; [exact H2| |exact Er|exact Lr|exact Hs|exact P2|].
    + rewrite simu_no_switch; assumption.
    + exact (lfd_op max s p o s2 x p1 (p2 ++ ps) H Ep L Ed Ho P1 Hi).
Qed.

End Ops.
