(** Prefetcher with failing reads: the invariant. *)

From Coq Require Import List Arith Bool Lia Permutation.
From Verif Require Import WriterModel WriterProofs PrefetchModel PrefetchSpec ScheduleSpec PrefetchProofs
  PrefetchProofs2 PrefetchProofs3 PrefetchErrModel PrefetchErrSpec.
Import ListNotations.

Ltac yproj := cbn [y_set y_p y_bad y_undef y_term] in *.

Lemma nth_error_snoc : forall {B} (l : list B) x k, k < S (length l) ->
  (k < length l /\ nth_error (l ++ [x]) k = nth_error l k) \/ (k = length l /\ nth_error (l ++ [x]) k = Some x).
Proof.
  intros B l x k H. destruct (Nat.eq_dec k (length l)) as [->|N].
  - right. rewrite nth_error_app2, Nat.sub_diag by auto. auto.
  - left. rewrite nth_error_app1 by lia. split; auto. lia.
Qed.

Section YInv.
Context {A : Type}.
Variables (bids : list bid) (sq : list nat) (disk : bid -> A) (n : nat).
Let len := length bids.
Hypothesis Hperm : all_blocks_once len sq.
Hypothesis Hn : 0 < n <= len.

Notation Core := (Core bids sq disk n).
Notation PInv := (PInv bids sq disk n).
Notation Pc := (Pc bids n).
Notation content := (content bids disk).

Record YI (tr : list (ylabel A)) (y : yst A) : Prop := mkYI {
  yi_p : exists btr back hs, PInv btr (y_p y) back (length (y_delivered tr)) hs;
  yi_bad : forall i, In i (y_bad y) -> exists r, nth_error (p_reqs (y_p y)) i = Some r /\
     q_ph r <> RPosted /\ In (q_blk r) (y_fails tr) /\ p_rreq (y_p y) (q_buf r) = Some i;
  yi_fail : forall k, In k (y_fails tr) -> exists i r, In i (y_bad y) /\
     nth_error (p_reqs (y_p y)) i = Some r /\ q_blk r = k;
  yi_undef : forall j r, nth_error (p_reqs (y_p y)) j = Some r -> q_ph r <> RPosted ->
     length (y_delivered tr) <= q_blk r -> (y_undef y (q_buf r) = true <-> In j (y_bad y));
  yi_del : forall k, k < length (y_delivered tr) ->
     nth_error (y_delivered tr) k = Some (if in_dec Nat.eq_dec k (y_fails tr) then None else content k)
}.

Lemma y_normal_app : forall t1 t2 : list (ylabel A), y_normal (t1 ++ t2) = y_normal t1 ++ y_normal t2.
Proof. induction t1 as [|[] t1]; intros; cbn; auto. rewrite IHt1; auto. Qed.
Lemma y_fails_app : forall t1 t2 : list (ylabel A), y_fails (t1 ++ t2) = y_fails t1 ++ y_fails t2.
Proof. induction t1 as [|[] t1]; intros; cbn; auto. rewrite IHt1; auto. Qed.
Lemma y_delivered_app : forall t1 t2 : list (ylabel A), y_delivered (t1 ++ t2) = y_delivered t1 ++ y_delivered t2.
Proof. unfold y_delivered. intros. rewrite y_normal_app, delivered_app; auto. Qed.
Lemma y_del_see : forall y (l : plabel A), length (delivered [y_see y l]) = length (delivered [l]).
Proof. destruct l; auto. Qed.

Lemma failed_in : forall y b, y_failed y b = true ->
  exists i, p_rreq (y_p y) b = Some i /\ In i (y_bad (A := A) y).
Proof.
  unfold y_failed. intros y b H. destruct (p_rreq (y_p y) b) as [i|]; [|discriminate].
  exists i. split; auto. apply existsb_exists in H. destruct H as (j & H & E). apply Nat.eqb_eq in E. subst; auto.
Qed.
Lemma in_failed : forall (y : yst A) b i, p_rreq (y_p y) b = Some i -> In i (y_bad y) -> y_failed y b = true.
Proof.
  unfold y_failed. intros y b i -> H. apply existsb_exists. exists i. split; auto. apply Nat.eqb_refl.
Qed.

(** What a step of the code does to the requests. *)
Lemma consumed_eff : forall (s : pst A) b,
  (p_reqs (consumed s b) = p_reqs s \/ exists k, p_reqs (consumed s b) = p_reqs s ++ [MkRd b k RPosted]) /\
  (forall b', b' <> b -> p_rreq (consumed s b) b' = p_rreq s b').
Proof.
  intros s b. unfold consumed, refill, p_len. pproj.
  destruct (p_nread s <? _); [destruct (b <? _); [destruct (nth_error _ _) as [k|]; [destruct ((k <? _) && _)|]|]|]; pproj;
  (split; [eauto|intros b' Hb; rewrite ?updn_other by auto; auto]).
Qed.

Lemma pistep_eff : forall (s : pst A) l s' back ret hs, Core s back ret hs -> Pc s back ret hs ->
  pistep false s l s' ->
  (p_reqs s' = p_reqs s \/ exists b k, p_reqs s' = p_reqs s ++ [MkRd b k RPosted]) /\
  (forall b j, p_rreq s b = Some j -> p_pc s <> PGiven b -> p_rreq s' b = Some j).
Proof.
  intros * C P St.
  inversion St; subst.
  - unfold PrefetchProofs.Pc in P. rewrite H in P. destruct P as (P1 & P2 & P3 & P4 & P5 & P6 & P7 & P8 & P9).
    unfold ctor_body, p_len.
    destruct (nth_error (p_seq s) i) as [k|]; [destruct (k <? _)|]; pproj; split; eauto.
    intros b j E _. rewrite updn_other; auto. intros ->.
    destruct (k_own _ _ _ _ _ _ _ _ C _ _ E) as (r & Hr & Eb). apply P9 in Hr as Hj. subst.
    assert (q_buf r < length (p_reqs s)) by (apply nth_error_Some; congruence). lia.
  - pproj. split; auto.
  - destruct (consumed_eff s b) as (E & F). split; [destruct E as [E|(k & E)]; eauto|].
    intros b' j Hr Hg. rewrite F; auto. congruence.
  - destruct (consumed_eff s b) as (E & F). pproj. split; [destruct E as [E|(k & E)]; eauto|].
    intros b' j Hr Hg. rewrite F; auto. congruence.
  - destruct (consumed_eff s b) as (E & F). pproj. split; [destruct E as [E|(k & E)]; eauto|].
    intros b' j Hr Hg. rewrite F; auto. congruence.
  - pproj. split; auto.
  - pproj. split; auto.
  - pproj. split; auto.
  - pproj. split; auto.
Qed.

Lemma del_len : forall btr s back ret hs, PInv btr s back ret hs -> length (delivered btr) = ret.
Proof. intros * V. apply (i_tr _ _ _ _ _ _ _ _ _ V). Qed.

(** A change of phase of request [i] after the data are there. *)
Lemma yphase_inv : forall tr y i r ph mem on l,
  YI tr y -> pestep (y_p y) FTau (set_req (y_p y) i (MkRd (q_buf r) (q_blk r) ph) mem on) ->
  nth_error (p_reqs (y_p y)) i = Some r -> q_ph r <> RPosted -> ph <> RPosted ->
  y_fails [l] = [] -> y_delivered [l] = [] ->
  YI (tr ++ [l]) (y_set y (set_req (y_p y) i (MkRd (q_buf r) (q_blk r) ph) mem on)).
Proof.
  intros * V St Hr NP1 NP2 EF ED. destruct V as [VP VB VF VU VD].
  assert (ED' : y_delivered (tr ++ [l]) = y_delivered tr) by (rewrite y_delivered_app, ED, app_nil_r; auto).
  assert (EF' : y_fails (tr ++ [l]) = y_fails tr) by (rewrite y_fails_app, EF, app_nil_r; auto).
  assert (New : forall j x, nth_error (p_reqs (y_p y)) j = Some x -> exists x',
     nth_error (set_nth i (MkRd (q_buf r) (q_blk r) ph) (p_reqs (y_p y))) j = Some x' /\ q_buf x' = q_buf x /\ q_blk x' = q_blk x /\
     (q_ph x <> RPosted -> q_ph x' <> RPosted)).
  { intros j x E. destruct (Nat.eq_dec j i) as [->|N].
    - rewrite set_nth_same by (apply nth_error_Some; congruence). assert (x = r) by congruence. subst.
      eexists. split; [reflexivity|]. cbn. auto.
    - rewrite set_nth_other by auto. exists x. auto. }
  constructor; rewrite ?ED', ?EF'; yproj; pproj; auto.
  - destruct VP as (btr & back & hs & V). exists (btr ++ [FTau]), back, hs. eapply pestep_inv; eauto.
  - intros j Hj. destruct (VB j Hj) as (x & E1 & E2 & E3 & E4).
    destruct (New j x E1) as (x' & F1 & F2 & F3 & F4). exists x'. rewrite F2, F3. auto.
  - intros k Hk. destruct (VF k Hk) as (j & x & E1 & E2 & E3).
    destruct (New j x E2) as (x' & F1 & F2 & F3 & F4). exists j, x'. rewrite F3. auto.
  - intros j x E NP L. apply set_nth_inv in E. destruct E as [(-> & -> & _)|(_ & E)]; cbn in *; eauto.
Qed.

(** A read ends, well ([bad] = false) or not. *)
Lemma yend_inv : forall tr y i r d (bad : bool) l,
  YI tr y -> nth_error (p_reqs (y_p y)) i = Some r -> q_ph r = RPosted ->
  nth_error (p_bids (y_p y)) (q_blk r) = Some d ->
  y_fails [l] = (if bad then [q_blk r] else []) -> y_delivered [l] = [] ->
  YI (tr ++ [l]) (MkY (set_req (y_p y) i (MkRd (q_buf r) (q_blk r) RArrived)
                    (updn (p_mem (y_p y)) (q_buf r) (Some (p_disk (y_p y) d))) (p_on (y_p y)))
           (if bad then i :: y_bad y else y_bad y) (updn (y_undef y) (q_buf r) bad) (y_term y)).
Proof.
  intros * V Hr Hp Hd EF ED. destruct V as [VP VB VF VU VD].
  assert (ED' : y_delivered (tr ++ [l]) = y_delivered tr) by (rewrite y_delivered_app, ED, app_nil_r; auto).
  assert (EF' : y_fails (tr ++ [l]) = y_fails tr ++ (if bad then [q_blk r] else [])) by (rewrite y_fails_app, EF; auto).
  destruct VP as (btr & back & hs & V). pose proof (i_core _ _ _ _ _ _ _ _ _ V) as C.
  assert (Ni : ~ In i (y_bad y)).
  { intros Q. destruct (VB i Q) as (x & E1 & E2 & _). congruence. }
  assert (Kr : length (y_delivered tr) <= q_blk r).
  { destruct (Nat.lt_ge_cases (q_blk r) (length (y_delivered tr))) as [L|L]; auto.
    destruct (returned_phase _ _ _ _ Hperm Hn _ _ _ _ _ _ C Hr L); congruence. }
  set (r' := MkRd (q_buf r) (q_blk r) RArrived).
  assert (New : forall j x, nth_error (p_reqs (y_p y)) j = Some x -> exists x',
     nth_error (set_nth i r' (p_reqs (y_p y))) j = Some x' /\ q_buf x' = q_buf x /\ q_blk x' = q_blk x /\
     (q_ph x <> RPosted -> q_ph x' <> RPosted)).
  { intros j x E. destruct (Nat.eq_dec j i) as [->|N].
    - rewrite set_nth_same by (apply nth_error_Some; congruence). assert (x = r) by congruence. subst.
      eexists. split; [reflexivity|]. cbn. csplit; auto; discriminate.
    - rewrite set_nth_other by auto. exists x. auto. }
  constructor; rewrite ?ED', ?EF'; yproj; pproj; fold r'.
  - exists (btr ++ [FTau]), back, hs. eapply pestep_inv; eauto. econstructor; eauto.
  - assert (Old : forall j, In j (y_bad y) -> exists r0, nth_error (set_nth i r' (p_reqs (y_p y))) j = Some r0 /\
       q_ph r0 <> RPosted /\ In (q_blk r0) (y_fails tr ++ (if bad then [q_blk r] else [])) /\ p_rreq (y_p y) (q_buf r0) = Some j).
    { intros j Hj. destruct (VB j Hj) as (x & E1 & E2 & E3 & E4).
      destruct (New j x E1) as (x' & F1 & F2 & F3 & F4). exists x'. rewrite F2, F3. csplit; auto.
      apply in_or_app; auto. }
    destruct bad; [|auto]. intros j [<-|Hj]; [|auto].
    exists r'. rewrite set_nth_same by (apply nth_error_Some; congruence). csplit; auto.
    + cbn. discriminate.
    + apply in_or_app. right. cbn. auto.
    + apply (k_fin _ _ _ _ _ _ _ _ C i r); auto. congruence.
  - intros k Hk. apply in_app_or in Hk. destruct Hk as [Hk|Hk].
    + destruct (VF k Hk) as (j & x & E1 & E2 & E3). destruct (New j x E2) as (x' & F1 & F2 & F3 & F4).
      exists j, x'. rewrite F3. csplit; auto. destruct bad; cbn; auto.
    + destruct bad; [|destruct Hk]. destruct Hk as [<-|[]]. exists i, r'.
      rewrite set_nth_same by (apply nth_error_Some; congruence). cbn. auto.
  - intros j x E NP L. apply set_nth_inv in E. destruct E as [(-> & -> & _)|(N & E)].
    + cbn. rewrite updn_same. destruct bad; cbn; [tauto|]. split; [discriminate|tauto].
    + rewrite updn_other.
      * rewrite (VU j x E NP L). destruct bad; cbn; [|tauto]. split; [auto|]. intros [Q|Q]; [congruence|auto].
      * intros Q. apply N. eapply (k_live _ _ _ _ _ _ _ _ C); eauto.
        -- intros B. apply (k_back _ _ _ _ _ _ _ _ C) in B. lia.
        -- apply (k_fin _ _ _ _ _ _ _ _ C i r); auto. congruence.
  - intros k Hk. rewrite (VD k Hk). f_equal.
    assert (k <> q_blk r) by lia.
    destruct (in_dec Nat.eq_dec k (y_fails tr)) as [I|I];
    destruct (in_dec Nat.eq_dec k (y_fails tr ++ _)) as [J|J]; auto; exfalso.
    + apply J, in_or_app; auto.
    + apply in_app_or in J. destruct J as [J|J]; auto. destruct bad; cbn in J; [destruct J; auto; congruence|auto].
Qed.

Lemma ystep_inv : forall tr y l y', YI tr y -> ystep y l y' -> YI (tr ++ [l]) y'.
Proof.
  intros tr y l y' V St. destruct St as [l s' T St|l s' T St W|i r d T Hr Hp Hd|i r d T Hr Hp Hd
    |i r T Hr Hp|i r T Hr Hp|b T Hpc Hw Hf|i T Hpc Hi Hw Hf].
  - (* caller *)
    destruct V as [VP VB VF VU VD]. destruct VP as (btr & back & hs & V).
    destruct (pcstep_inv _ _ _ _ Hn _ _ _ _ _ _ _ V St) as (back' & ret' & hs' & V').
    pose proof (del_len _ _ _ _ _ V') as L'. pose proof (del_len _ _ _ _ _ V) as L.
    assert (El : delivered [l] = []) by (inversion St; auto).
    assert (ED' : y_delivered (tr ++ [YOk l]) = y_delivered tr).
    { rewrite y_delivered_app. unfold y_delivered at 2. cbn [y_normal]. rewrite El, app_nil_r; auto. }
    assert (EF' : y_fails (tr ++ [YOk l]) = y_fails tr) by (rewrite y_fails_app; cbn; rewrite app_nil_r; auto).
    assert (Er : ret' = length (y_delivered tr)).
    { rewrite <- L', delivered_app, El, app_nil_r. auto. }
    rewrite Er in V'.
    assert (Eq : p_reqs s' = p_reqs (y_p y) /\ p_rreq s' = p_rreq (y_p y)) by (inversion St; auto).
    destruct Eq as (E1 & E2).
    constructor; rewrite ?ED', ?EF'; yproj; rewrite ?E1, ?E2; eauto.
    intros j r Hr NP Lr. rewrite <- (VU j r Hr NP Lr).
    destruct l; try tauto. inversion St; subst. rewrite updn_other; [tauto|].
    intros Q. pose proof (i_core _ _ _ _ _ _ _ _ _ V) as C. pose proof (i_pc _ _ _ _ _ _ _ _ _ V) as P.
    unfold PrefetchProofs.Pc in P.
    match goal with K : p_pc _ = PIdle |- _ => rewrite K in P end. destruct P as (_ & _ & ->).
    match goal with K : In _ (p_held _) |- _ => apply (k_hs _ _ _ _ _ _ _ _ C) in K; destruct K as (j' & x & Z1 & Z2 & Z3 & Z4) end.
    assert (j = j').
    { eapply (k_live _ _ _ _ _ _ _ _ C); eauto; [|congruence]. intros B.
      apply (k_back _ _ _ _ _ _ _ _ C) in B. lia. }
    subst j'. assert (x = r) by congruence. subst. lia.
  - (* code *)
    destruct V as [VP VB VF VU VD]. destruct VP as (btr & back & hs & V).
    pose proof (i_core _ _ _ _ _ _ _ _ _ V) as C. pose proof (i_pc _ _ _ _ _ _ _ _ _ V) as P.
    destruct (pistep_inv _ _ _ _ Hperm Hn _ _ _ _ _ _ _ V St) as (back' & ret' & hs' & V').
    pose proof (del_len _ _ _ _ _ V') as L'. pose proof (del_len _ _ _ _ _ V) as L.
    destruct (pistep_eff _ _ _ _ _ _ C P St) as (Rq & Rr).
    assert (EF' : y_fails (tr ++ [YOk (y_see y l)]) = y_fails tr) by (rewrite y_fails_app; cbn; rewrite app_nil_r; auto).
    assert (Er : ret' = length (y_delivered (tr ++ [YOk (y_see y l)]))).
    { rewrite <- L', delivered_app, y_delivered_app, !app_length, L. f_equal.
      unfold y_delivered. cbn [y_normal]. symmetry. apply y_del_see. }
    assert (Lm : length (y_delivered tr) <= length (y_delivered (tr ++ [YOk (y_see y l)]))).
    { rewrite y_delivered_app, app_length. lia. }
    assert (Keep : forall j r, nth_error (p_reqs (y_p y)) j = Some r -> nth_error (p_reqs s') j = Some r).
    { intros j r E. destruct Rq as [->|(b & k & ->)]; auto. rewrite nth_error_app1; auto. apply nth_error_Some; congruence. }
    assert (Old : forall j r, nth_error (p_reqs s') j = Some r -> q_ph r <> RPosted -> nth_error (p_reqs (y_p y)) j = Some r).
    { intros j r E N. destruct Rq as [Q|(b & k & Q)]; rewrite Q in E; auto.
      apply (nth_snoc bids n Hn) in E. destruct E as [E|(_ & ->)]; auto. cbn in N. congruence. }
    rewrite Er in V'.
    constructor; rewrite ?EF'; yproj; eauto.
    + intros i Hi. destruct (VB i Hi) as (r & E1 & E2 & E3 & E4). exists r. csplit; auto.
      apply Rr; auto. intros Q. specialize (W (q_buf r) (or_introl Q)).
      rewrite (in_failed _ _ _ E4 Hi) in W. discriminate.
    + intros k Hk. destruct (VF k Hk) as (i & r & E1 & E2 & E3). exists i, r. auto.
    + intros j r E N Lr. apply VU; auto. lia.
    + intros k Hk.
      assert (D : y_delivered (tr ++ [YOk (y_see y l)]) = y_delivered tr \/
        exists b a, l = FRet b a /\ y_delivered (tr ++ [YOk (y_see y l)]) = y_delivered tr ++ [y_mem y b]).
      { rewrite y_delivered_app. unfold y_delivered at 2 4. cbn [y_normal].
        destruct l; cbn; rewrite ?app_nil_r; eauto. }
      destruct D as [D|(b & a & -> & D)]; [rewrite D in *; apply VD; auto|].
      rewrite D in Hk |- *. rewrite app_length in Hk. cbn in Hk.
      destruct (nth_error_snoc (y_delivered tr) (y_mem y b) k) as [(K & ->)|(-> & ->)]; [lia|auto|].
      f_equal. inversion St; subst.
      unfold PrefetchProofs.Pc in P. match goal with K : p_pc _ = PWait _ |- _ => rewrite K in P end.
      destruct P as (P1 & P2 & P3 & P4 & P5). rewrite <- P2.
      match goal with K : p_on _ _ = true \/ _ |- _ => destruct K as [On|?]; [|discriminate] end.
      apply (k_on _ _ _ _ _ _ _ _ C) in On. destruct On as (j & r & Hj & Ek & Ph).
      assert (Eb : q_buf r = b).
      { pose proof (k_pref _ _ _ _ _ _ _ _ C _ _ Hj). rewrite Ek in *. congruence. }
      assert (NP : q_ph r <> RPosted) by (destruct Ph as [Ph|Ph]; rewrite Ph; discriminate).
      assert (Lr : length (y_delivered tr) <= q_blk r) by lia.
      pose proof (VU j r Hj NP Lr) as U. rewrite Eb in U. unfold y_mem.
      destruct (in_dec Nat.eq_dec k (y_fails tr)) as [I|I].
      * assert (y_undef y b = true) as ->; auto. apply U.
        destruct (VF k I) as (i & x & F1 & F2 & F3).
        assert (i = j) by (eapply (blk_inj _ _ _ _ Hperm Hn); eauto; congruence). subst; auto.
      * destruct (y_undef y b).
        -- exfalso. apply I. destruct (VB j) as (x & F1 & F2 & F3 & _); [tauto|].
           rewrite <- Ek. congruence.
        -- rewrite <- Ek, <- Eb. apply (k_mem _ _ _ _ _ _ _ _ C j r); auto.
           intros B. apply (k_back _ _ _ _ _ _ _ _ C) in B. lia.
  - apply (yend_inv tr y i r d false); auto.
  - apply (yend_inv tr y i r d true); auto.
  - apply yphase_inv; auto; try congruence. econstructor; eauto.
  - apply yphase_inv; auto; try congruence. econstructor; eauto.
  - (* block_consumed throws *)
    destruct V as [VP VB VF VU VD].
    assert (ED' : y_delivered (tr ++ [YThrow]) = y_delivered tr) by (rewrite y_delivered_app; apply app_nil_r).
    assert (EF' : y_fails (tr ++ [YThrow]) = y_fails tr) by (rewrite y_fails_app; apply app_nil_r).
    constructor; rewrite ?ED', ?EF'; yproj; pproj; auto.
    destruct VP as (btr & back & hs & [C P T']). exists btr, back, hs. constructor; auto.
    + eapply core_ext; [exact C|..]; reflexivity.
    + unfold PrefetchProofs.Pc in *. rewrite Hpc in P. pproj. destruct P as (P1 & P2 & P3).
      csplit; auto; apply P1.
  - destruct V as [VP VB VF VU VD].
    assert (ED' : y_delivered (tr ++ [YTerminate]) = y_delivered tr) by (rewrite y_delivered_app; apply app_nil_r).
    assert (EF' : y_fails (tr ++ [YTerminate]) = y_fails tr) by (rewrite y_fails_app; apply app_nil_r).
    constructor; rewrite ?ED', ?EF'; yproj; auto.
Qed.

End YInv.

Lemma yrun_inv : forall {A} bids sq bufs (disk : bid -> A) mem y0 tr y,
  all_blocks_once (length bids) sq -> y_init bids sq bufs disk mem = Some y0 -> yrun y0 tr y ->
  YI bids sq disk (min bufs (length bids)) tr y.
Proof.
  intros * Hp H0 R. unfold y_init in H0. destruct (p_init bids sq bufs disk mem) as [s0|] eqn:I; [|discriminate].
  inversion H0; subst y0. clear H0.
  destruct (init_facts _ _ _ _ _ _ I) as (Hn & _).
  remember (MkY s0 [] (fun _ => false) false) as y0. induction R as [y|y1 tr y2 l y3 R IH St].
  - subst y. destruct (prun_inv _ _ _ _ _ _ _ _ Hp I (PNil _ s0)) as (back & ret & hs & V).
    pose proof (del_len _ _ _ _ _ _ _ _ _ V) as L. cbn in L. subst ret.
    constructor; yproj; try (intros; cbn in *; tauto || lia).
    exists [], back, hs. exact V.
  - eapply ystep_inv; eauto.
Qed.
