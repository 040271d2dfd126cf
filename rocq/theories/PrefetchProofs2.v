(** Prefetcher: steps of the code and of the caller; runs. *)

From Coq Require Import List Arith Bool Lia Permutation.
From Verif Require Import WriterModel WriterProofs PrefetchModel PrefetchSpec ScheduleSpec PrefetchProofs.
Import ListNotations.

Ltac pproj := cbn [set_ppc post_read clear_req bump_read start_wait set_pheld set_req
  p_bids p_seq p_disk p_n p_nread p_ncons p_mem p_rreq p_on p_pref p_reqs p_pc p_held] in *.

Section Steps.
Context {A : Type}.
Variables (bids : list bid) (sq : list nat) (disk : bid -> A) (n : nat).
Let len := length bids.
Hypothesis Hperm : all_blocks_once len sq.
Hypothesis Hn : 0 < n <= len.
Implicit Types s : pst A.

Notation Core := (Core bids sq disk n).
Notation PInv := (PInv bids sq disk n).
Notation Pc := (Pc bids n).
Notation nr := (nr bids n).

Lemma core_ext : forall s s' back ret hs, Core s back ret hs ->
  p_bids s' = p_bids s -> p_seq s' = p_seq s -> p_disk s' = p_disk s -> p_n s' = p_n s ->
  p_reqs s' = p_reqs s -> p_on s' = p_on s -> p_mem s' = p_mem s -> p_rreq s' = p_rreq s ->
  p_pref s' = p_pref s -> Core s' back ret hs.
Proof.
  intros * C E1 E2 E3 E4 E5 E6 E7 E8 E9. destruct C.
  constructor; rewrite ?E1, ?E2, ?E3, ?E4, ?E5, ?E6, ?E7, ?E8, ?E9; auto.
Qed.

Lemma requested_idx : forall s back ret hs k, Core s back ret hs -> p_on s k = true ->
  nth_error sq (length (p_reqs s)) = Some k -> False.
Proof.
  intros * C On E. apply (k_on _ _ _ _ _ _ _ _ C) in On. destruct On as (j & r & H & B & _).
  pose proof (blk_at _ _ _ _ Hn _ _ _ _ _ _ C H) as E'. rewrite B in E'. rewrite <- E in E'.
  assert (L : j < length (p_reqs s)) by (apply nth_error_Some; congruence).
  apply (proj1 (NoDup_nth_error sq) (sq_nodup _ _ Hperm)) in E'; [lia|].
  apply nth_error_Some. rewrite E', E. discriminate.
Qed.

Lemma firstn_snoc : forall {B} (l : list B) k x, nth_error l k = Some x ->
  firstn (S k) l = firstn k l ++ [x].
Proof.
  induction l; destruct k; intros x H; cbn in *; try discriminate.
  - inversion H; auto.
  - rewrite <- (IHl k x H). auto.
Qed.

Lemma nth_snoc : forall {B} (l : list B) (y : B) j x, nth_error (l ++ [y]) j = Some x ->
  nth_error l j = Some x \/ (j = length l /\ x = y).
Proof.
  intros B l y j x H. destruct (Nat.lt_ge_cases j (length l)).
  - rewrite nth_error_app1 in H by auto. auto.
  - rewrite nth_error_app2 in H by auto. right. destruct (j - length l) eqn:E.
    + cbn in H. inversion H. split; auto; lia.
    + cbn in H. destruct n0; discriminate.
Qed.

Lemma core_post : forall s back ret hs b k, Core s back ret hs ->
  nth_error sq (length (p_reqs s)) = Some k -> b < n ->
  (forall j r, nth_error (p_reqs s) j = Some r -> q_buf r = b -> In (q_blk r) back) ->
  Core (post_read s b k) back ret hs.
Proof.
  intros * C Ek Hb Dead. pose proof C as C0. destruct C0.
  assert (Noff : p_on s k = false).
  { destruct (p_on s k) eqn:E; auto. exfalso. eapply requested_idx; eauto. }
  assert (Kret : ret <= k).
  { destruct (Nat.lt_ge_cases k ret) as [L|L]; auto. rewrite (k_ret k L) in Noff. discriminate. }
  assert (Kback : ~ In k back) by (intros Q; apply k_back in Q; lia).
  assert (Kold : forall j r, nth_error (p_reqs s) j = Some r -> q_blk r <> k).
  { intros j r H Q. pose proof (blk_at _ _ _ _ Hn _ _ _ _ _ _ C H) as E'. rewrite Q, <- Ek in E'.
    assert (L : j < length (p_reqs s)) by (apply nth_error_Some; congruence).
    apply (proj1 (NoDup_nth_error sq) (sq_nodup _ _ Hperm)) in E'; [lia|].
    apply nth_error_Some. rewrite E', Ek. discriminate. }
  set (nw := MkRd b k RPosted).
  assert (Last : nth_error (p_reqs s ++ [nw]) (length (p_reqs s)) = Some nw).
  { rewrite nth_error_app2, Nat.sub_diag by auto. auto. }
  assert (Keep : forall j r, nth_error (p_reqs s) j = Some r -> nth_error (p_reqs s ++ [nw]) j = Some r).
  { intros j r H. rewrite nth_error_app1; auto. apply nth_error_Some; congruence. }
  constructor; pproj; auto.
  - rewrite map_app, app_length, k_blk. cbn [map length q_blk nw].
    replace (length (p_reqs s) + 1) with (S (length (p_reqs s))) by lia.
    rewrite (firstn_snoc _ _ _ Ek). auto.
  - intros j1 r1 j2 r2 H1 H2 B1 B2 E. apply nth_snoc in H1. apply nth_snoc in H2.
    destruct H1 as [H1|(-> & ->)]; destruct H2 as [H2|(-> & ->)]; eauto.
    + exfalso. apply B1. apply (Dead j1 r1); auto.
    + exfalso. apply B2. apply (Dead j2 r2); auto.
  - intros j r H. apply nth_snoc in H. destruct H as [H|(-> & ->)]; eauto.
  - intros x. rewrite k_hs. split; intros (j & r & H & E1 & E2 & E3).
    + exists j, r. auto.
    + apply nth_snoc in H. destruct H as [H|(-> & ->)]; [exists j, r; auto|].
      cbn in E2. lia.
  - intros x. rewrite k_on. split; intros (j & r & H & E1 & E2).
    + exists j, r. auto.
    + apply nth_snoc in H. destruct H as [H|(-> & ->)]; [exists j, r; auto|].
      cbn in E2. destruct E2; discriminate.
  - intros j r H B R P. apply nth_snoc in H. destruct H as [H|(-> & ->)]; [|cbn in P; congruence].
    rewrite updn_other; [eauto|]. intros Q. apply B. eapply Dead; eauto.
  - intros j r H P. apply nth_snoc in H. destruct H as [H|(-> & ->)].
    + destruct (k_fin j r H P) as (O1 & O2). split; auto.
      rewrite updn_other; auto. intros Q. apply O2. eapply Dead; eauto.
    + cbn. rewrite updn_same. auto.
  - intros x j E. unfold updn in E. destruct (x =? b) eqn:X.
    + apply Nat.eqb_eq in X. inversion E; subst. exists nw. auto.
    + destruct (k_own x j E) as (r & H & U). exists r. auto.
  - intros j r H. apply nth_snoc in H. destruct H as [H|(-> & ->)].
    + rewrite updn_other; eauto.
    + cbn. apply updn_same.
Qed.

Lemma core_give : forall s back ret h b, Core s back ret (b :: h) -> rwait s b = true ->
  exists k, Core (clear_req s b) (k :: back) ret h /\
    (forall j r, nth_error (p_reqs s) j = Some r -> q_buf r = b -> In (q_blk r) (k :: back)).
Proof.
  intros * C W. pose proof C as C0. destruct C0.
  destruct (proj1 (k_hs b)) as (j0 & r0 & H0 & B0 & R0 & N0); [cbn; auto|].
  pose proof (rwait_fin _ _ _ _ _ _ _ _ _ _ _ C W H0 B0) as F0.
  exists (q_blk r0). inversion k_nd as [|? ? Nb Nd]; subst.
  assert (Dead : forall j r, nth_error (p_reqs s) j = Some r -> q_buf r = q_buf r0 ->
                   In (q_blk r) (q_blk r0 :: back)).
  { intros j r H E. destruct (in_dec Nat.eq_dec (q_blk r) back) as [I|I]; [cbn; auto|].
    assert (j = j0) by (eapply k_live; eauto). subst. left. congruence. }
  split; [|exact Dead].
  constructor; pproj; auto.
  - intros j1 r1 j2 r2 H1 H2 B1 B2 E. cbn in B1, B2. eapply k_live; eauto.
  - intros x. split.
    + intros I. destruct (proj1 (k_hs x)) as (j & r & H & E1 & E2 & E3); [cbn; auto|].
      exists j, r. csplit; auto. intros [Q|Q]; [|auto].
      assert (j = j0) by (eapply blk_inj; eauto). subst. assert (r = r0) by congruence. subst. auto.
    + intros (j & r & H & E1 & E2 & E3). cbn in E3.
      destruct (proj2 (k_hs x)) as [Q|Q]; [exists j, r; csplit; auto| |auto].
      exfalso. apply E3. destruct (Dead j r H) as [Z|Z]; [congruence|auto|auto].
  - cbn [length] in *. lia.
  - destruct k_back as (K1 & K2). split; [constructor; auto|]. intros k [<-|Q]; auto.
  - intros j r H B R P. cbn in B. eapply k_mem; eauto.
  - intros j r H P. destruct (k_fin j r H P) as (O1 & O2).
    assert (Nr : q_buf r <> q_buf r0).
    { intros Q. destruct (Dead j r H Q) as [Z|Z]; [|auto].
      assert (j = j0) by (eapply blk_inj; eauto). subst. assert (r = r0) by congruence. congruence. }
    split; [rewrite updn_other; auto|]. intros [Q|Q]; [|auto].
    assert (j = j0) by (eapply blk_inj; eauto). subst. assert (r = r0) by congruence. congruence.
  - intros x j E. unfold updn in E. destruct (x =? q_buf r0); [discriminate|eauto].
Qed.

Lemma content_some : forall k, k < len -> exists d, nth_error bids k = Some d /\ content bids disk k = Some (disk d).
Proof.
  intros k H. destruct (nth_error bids k) as [d|] eqn:E.
  - exists d. unfold content. rewrite E. auto.
  - apply nth_error_None in E. unfold len in *. lia.
Qed.

Lemma stream_nth : forall k, k < len -> nth_error (stream disk bids) k = Some (content bids disk k).
Proof.
  intros k H. destruct (content_some k H) as (d & E & ->). unfold stream. rewrite nth_error_map, E. auto.
Qed.

(** The body of block_consumed never fails and keeps the invariant. *)
Lemma consumed_inv : forall s back ret h b, Core s back ret (b :: h) -> rwait s b = true ->
  nr s back ->
  exists k, Core (consumed s b) (k :: back) ret h /\ nr (consumed s b) (k :: back) /\
    p_pc (consumed s b) = p_pc s /\ p_ncons (consumed s b) = p_ncons s /\
    p_held (consumed s b) = p_held s.
Proof.
  intros * C W (N1 & N2).
  destruct (core_give _ _ _ _ _ C W) as (k0 & C' & Dead). exists k0.
  assert (Hb : b < n).
  { destruct (proj1 (k_hs _ _ _ _ _ _ _ _ C b)) as (j & r & H & E & _); [cbn; auto|].
    rewrite <- E. eapply (k_bufn _ _ _ _ _ _ _ _ C); eauto. }
  destruct (k_const _ _ _ _ _ _ _ _ C) as (E1 & E2 & E3 & E4).
  unfold consumed, refill, p_len. pproj. rewrite E1, E2, E4. fold len.
  destruct (p_nread s <? len) eqn:L.
  - apply Nat.ltb_lt in L. assert (Lb : b <? n = true) by (apply Nat.ltb_lt; auto). rewrite Lb.
    destruct (nth_error sq (p_nread s)) as [k|] eqn:Ek.
    2:{ apply nth_error_None in Ek. rewrite (sq_length _ _ Hperm) in Ek. lia. }
    assert (Kl : k <? len = true).
    { apply Nat.ltb_lt. apply (sq_range _ _ _ Hperm Hn). eapply nth_error_In; eauto. }
    assert (Ko : p_on s k = false).
    { destruct (p_on s k) eqn:E; auto. exfalso. eapply (requested_idx _ _ _ _ _ C); eauto. rewrite N1; auto. }
    rewrite Kl, Ko. cbn [negb andb]. csplit; auto.
    + apply core_post; auto.
      * eapply core_ext; [exact C'|..]; reflexivity.
      * pproj. rewrite N1; auto.
    + unfold nr, PrefetchProofs.nr. pproj. fold len. rewrite app_length. cbn [length]. split; lia.
  - apply Nat.ltb_ge in L. csplit; auto.
    unfold nr, PrefetchProofs.nr. pproj. fold len. fold len in N2. cbn [length]. split; lia.
Qed.

Lemma pistep_inv : forall tr s back ret hs l s', PInv tr s back ret hs -> pistep false s l s' ->
  exists back' ret' hs', PInv (tr ++ [l]) s' back' ret' hs'.
Proof.
  intros tr s back ret hs l s' V St. destruct V as [C P T].
  assert (Tt : forall x, delivered [x] = [] -> delivered (tr ++ [x]) = delivered tr).
  { intros x E. rewrite delivered_app, E, app_nil_r. auto. }
  inversion St; subst; unfold Pc, PrefetchProofs.Pc in P; rewrite H in P.
  - (* constructor *)
    destruct P as (P1 & P2 & P3 & P4 & P5 & P6 & P7 & P8 & P9). subst back ret hs.
    destruct (k_const _ _ _ _ _ _ _ _ C) as (E1 & E2 & E3 & E4).
    exists [], 0, []. unfold ctor_body, p_len. rewrite E1, E2. fold len.
    destruct (nth_error sq i) as [k|] eqn:Ek.
    2:{ apply nth_error_None in Ek. rewrite (sq_length _ _ Hperm) in Ek. lia. }
    assert (Kl : k <? len = true).
    { apply Nat.ltb_lt. apply (sq_range _ _ _ Hperm Hn). eapply nth_error_In; eauto. }
    rewrite Kl. constructor.
    + eapply core_ext; [apply core_post with (b := i) (k := k); [exact C|..]|..]; try reflexivity.
      * rewrite P2; auto.
      * lia.
      * intros j r Hj Eb. rewrite (P9 j r Hj) in Eb.
        assert (j < length (p_reqs s)) by (apply nth_error_Some; congruence). lia.
    + unfold Pc, PrefetchProofs.Pc. pproj. rewrite app_length. cbn [length]. csplit; auto; try lia.
      intros j r Hj. apply nth_snoc in Hj. destruct Hj as [Hj|(-> & ->)]; auto.
    + rewrite Tt by auto. auto.
  - destruct P as (P1 & P2 & P3 & P4 & P5 & P6 & P7 & P8 & P9). subst back ret hs.
    destruct (k_const _ _ _ _ _ _ _ _ C) as (E1 & E2 & E3 & E4).
    exists [], 0, []. constructor.
    + eapply core_ext; [exact C|..]; reflexivity.
    + unfold Pc, PrefetchProofs.Pc, PrefetchProofs.nr. pproj. fold len. cbn [length]. csplit; auto; lia.
    + rewrite Tt by auto. auto.
  - destruct P as (P1 & P2 & P3). subst hs.
    destruct (consumed_inv _ _ _ _ _ C H0 P1) as (k & _ & _ & E & _). congruence.
  - destruct P as (P1 & P2 & P3). subst hs.
    destruct (consumed_inv _ _ _ _ _ C H0 P1) as (k & C' & N' & E & Ec & Eh).
    exists (k :: back), ret, (p_held s). constructor.
    + eapply core_ext; [exact C'|..]; reflexivity.
    + unfold Pc, PrefetchProofs.Pc. cbn [set_ppc p_pc p_ncons p_held]. csplit; auto; congruence.
    + rewrite Tt by auto. auto.
  - destruct P as (P1 & P2 & P3). subst hs.
    destruct (consumed_inv _ _ _ _ _ C H0 P1) as (k & C' & N' & E & Ec & Eh).
    destruct (k_const _ _ _ _ _ _ _ _ C) as (E1 & _).
    exists (k :: back), ret, (p_held s). constructor.
    + eapply core_ext; [exact C'|..]; reflexivity.
    + unfold Pc, PrefetchProofs.Pc. cbn [start_wait p_pc p_ncons p_held]. fold len.
      unfold p_len in H2. rewrite E1 in H2. fold len in H2. csplit; auto; try congruence.
    + rewrite Tt by auto. auto.
  - (* wait returns *)
    destruct P as (P1 & P2 & P3 & P4 & P5). subst k hs. fold len in P4.
    destruct H0 as [On|?]; [|discriminate].
    pose proof On as On'. apply (k_on _ _ _ _ _ _ _ _ C) in On'. destruct On' as (j & r & Hj & Ek & Ph).
    assert (Eb : q_buf r = b).
    { pose proof (k_pref _ _ _ _ _ _ _ _ C _ _ Hj). rewrite Ek in *. congruence. }
    assert (Nback : ~ In ret back) by (intros Q; apply (k_back _ _ _ _ _ _ _ _ C) in Q; lia).
    assert (Em : p_mem s b = content bids disk ret).
    { rewrite <- Eb, <- Ek. apply (k_mem _ _ _ _ _ _ _ _ C j r); auto; try (rewrite Ek; auto).
      destruct Ph as [Ph|Ph]; rewrite Ph; discriminate. }
    exists back, (S ret), (b :: p_held s). constructor.
    + pose proof C as C0. destruct C0. constructor; pproj; auto.
      * intros x. split.
        -- intros [<-|I]; [exists j, r; csplit; auto; [lia|congruence]|].
           apply k_hs in I. destruct I as (j' & r' & I1 & I2 & I3 & I4). exists j', r'. csplit; auto.
        -- intros (j' & r' & I1 & I2 & I3 & I4).
           destruct (Nat.eq_dec (q_blk r') ret) as [Q|Q].
           ++ left. assert (j' = j) by (eapply blk_inj; eauto; congruence). subst. congruence.
           ++ right. apply k_hs. exists j', r'. csplit; auto. lia.
      * constructor; auto. intros I. apply k_hs in I. destruct I as (j' & r' & I1 & I2 & I3 & I4).
        assert (j' = j) by (eapply k_live; eauto; congruence). subst. assert (r' = r) by congruence. subst. lia.
      * cbn [length]. lia.
      * intros k L. destruct (Nat.eq_dec k ret) as [->|Q]; auto. apply k_ret. lia.
      * destruct k_back. split; auto. intros k Q. specialize (H3 k Q). lia.
      * intros j' r' I1 I2 I3 I4. apply (k_mem j' r'); auto. lia.
    + unfold Pc, PrefetchProofs.Pc. pproj. csplit; auto.
    + destruct T as (T1 & T2). rewrite delivered_app. cbn [delivered]. split.
      * rewrite T1, Em. symmetry. apply firstn_snoc. apply stream_nth; auto.
      * rewrite app_length, T2. cbn [length]. lia.
  - destruct P as (P1 & P2 & P3 & P4 & P5). subst k hs.
    destruct H0 as [On|?]; [|discriminate].
    apply (k_on _ _ _ _ _ _ _ _ C) in On. destruct On as (j & r & Hj & Ek & Ph).
    pose proof (k_pref _ _ _ _ _ _ _ _ C _ _ Hj) as Q. rewrite Ek in Q. apply H1 in Q.
    pose proof (k_bufn _ _ _ _ _ _ _ _ C _ _ Hj).
    destruct (k_const _ _ _ _ _ _ _ _ C) as (E1 & E2 & E3 & E4). lia.
  - destruct P as (P1 & P2). exists back, ret, hs. constructor.
    + eapply core_ext; [exact C|..]; reflexivity.
    + unfold Pc, PrefetchProofs.Pc. pproj. split; auto. intros b Hb.
      destruct (Nat.eq_dec b i) as [->|Q]; [exact H1|]. apply P2. lia.
    + rewrite Tt by auto. auto.
  - destruct P as (P1 & P2). destruct (k_const _ _ _ _ _ _ _ _ C) as (E1 & E2 & E3 & E4).
    exists back, ret, hs. constructor.
    + eapply core_ext; [exact C|..]; reflexivity.
    + unfold Pc, PrefetchProofs.Pc. pproj. split; auto. intros b Hb. apply P2. lia.
    + rewrite Tt by auto. auto.
Qed.

Lemma perm_hs : forall s back ret hs hs', Core s back ret hs -> Permutation hs hs' -> Core s back ret hs'.
Proof.
  intros * C P. destruct C. constructor; auto.
  - intros b. rewrite <- k_hs. split; intros I.
    + eapply Permutation_in; [apply Permutation_sym; exact P|auto].
    + eapply Permutation_in; eauto.
  - eapply Permutation_NoDup; eauto.
  - rewrite <- (Permutation_length P). auto.
Qed.

Lemma pcstep_inv : forall tr s back ret hs l s', PInv tr s back ret hs -> pcstep s l s' ->
  exists back' ret' hs', PInv (tr ++ [l]) s' back' ret' hs'.
Proof.
  intros tr s back ret hs l s' V St. destruct V as [C P T].
  assert (Tt : delivered (tr ++ [l]) = delivered tr).
  { rewrite delivered_app. inversion St; subst; cbn; apply app_nil_r. }
  inversion St; subst; unfold Pc, PrefetchProofs.Pc in P; rewrite H in P;
    destruct P as (P1 & P2 & P3); subst hs.
  - destruct (k_const _ _ _ _ _ _ _ _ C) as (E1 & _).
    exists back, ret, (p_held s). constructor.
    + eapply core_ext; [exact C|..]; reflexivity.
    + unfold Pc, PrefetchProofs.Pc. cbn [start_wait p_pc p_ncons p_held]. fold len.
      unfold p_len in H0. rewrite E1 in H0. fold len in H0. csplit; auto; lia.
    + rewrite Tt. auto.
  - exists back, ret, (b :: h1 ++ h2). constructor.
    + eapply core_ext; [eapply perm_hs; [exact C|]|..]; try reflexivity.
      rewrite H0. apply Permutation_sym, Permutation_middle.
    + unfold Pc, PrefetchProofs.Pc. pproj. csplit; auto.
    + rewrite Tt. auto.
  - exists back, ret, (p_held s). constructor.
    + pose proof C as C0. destruct C0. constructor; pproj; auto.
      intros j r Hj B R Ph. rewrite updn_other; [eauto|].
      intros Q. apply k_hs in H0. destruct H0 as (j' & r' & I1 & I2 & I3 & I4).
      assert (j' = j) by (eapply k_live; eauto; congruence). subst. assert (r' = r) by congruence. subst. lia.
    + unfold Pc, PrefetchProofs.Pc. pproj. csplit; auto.
    + rewrite Tt. auto.
  - exists back, ret, (p_held s). constructor.
    + eapply core_ext; [exact C|..]; reflexivity.
    + unfold Pc, PrefetchProofs.Pc. pproj. split; auto. intros b Hb. lia.
    + rewrite Tt. auto.
Qed.

Lemma pstep_inv : forall tr s back ret hs l s', PInv tr s back ret hs -> pstep false s l s' ->
  exists back' ret' hs', PInv (tr ++ [l]) s' back' ret' hs'.
Proof.
  intros * V [H|[H|H]].
  - eapply pcstep_inv; eauto.
  - eapply pistep_inv; eauto.
  - exists back, ret, hs. eapply pestep_inv; eauto.
Qed.

End Steps.

Lemma init_facts : forall {A} bids sq bufs (disk : bid -> A) mem s,
  p_init bids sq bufs disk mem = Some s ->
  0 < min bufs (length bids) <= length bids /\
  PInv bids sq disk (min bufs (length bids)) [] s [] 0 [].
Proof.
  intros A bids sq bufs disk mem s H. unfold p_init in H.
  destruct (length bids) as [|m] eqn:El; [discriminate|].
  destruct bufs as [|bufs]; [discriminate|]. rewrite <- El in *. inversion H; subst.
  split; [lia|]. constructor.
  - constructor; cbn [p_bids p_seq p_disk p_n p_reqs p_on p_mem p_rreq p_pref]; auto.
    + intros j1 r1 j2 r2 Q. destruct j1; discriminate.
    + intros j r Q. destruct j; discriminate.
    + intros b. split; [intros []|]. intros (j & r & Q & _). destruct j; discriminate.
    + constructor.
    + intros k. split; [discriminate|]. intros (j & r & Q & _). destruct j; discriminate.
    + intros k Q. lia.
    + split; [constructor|intros k []].
    + intros j r Q. destruct j; discriminate.
    + intros j r Q. destruct j; discriminate.
    + discriminate.
    + intros j r Q. destruct j; discriminate.
  - unfold Pc. cbn [p_pc p_reqs p_nread p_ncons p_held length]. csplit; auto; try lia.
    intros j r Q. destruct j; discriminate.
  - auto.
Qed.

Lemma prun_inv : forall {A} bids sq bufs (disk : bid -> A) mem s0 tr s,
  all_blocks_once (length bids) sq -> p_init bids sq bufs disk mem = Some s0 ->
  prun false s0 tr s ->
  exists back ret hs, PInv bids sq disk (min bufs (length bids)) tr s back ret hs.
Proof.
  intros A bids sq bufs disk mem s0 tr s Hp H0 R. destruct (init_facts _ _ _ _ _ _ H0) as (Hn & V0).
  induction R.
  - exists [], 0, []. auto.
  - destruct (IHR H0 V0) as (back & ret & hs & V). eapply pstep_inv; eauto.
Qed.
