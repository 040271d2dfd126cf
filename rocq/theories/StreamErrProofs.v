(** Streams with failing I/O: the invariant of the output stream. *)

From Coq Require Import List Arith Bool ZArith Lia Permutation.
From Verif Require Import WriterModel WriterSpec WriterProofs WriterProofs2 WriterErrModel WriterErrSpec
  WriterErrProofs WriterErrProps StreamModel StreamProofs StreamErrModel.
Import ListNotations.

Section OStream.
Context {R : Type}.
Variable B : nat.
Hypothesis HB : 1 <= B.
Local Notation block := (list R).

Definition getting (pc : wpc) : Prop :=
  match pc with WFlush _ _ | WPush _ _ | GPoll _ | GTake => True | _ => False end.
Definition calm (l : xlabel block) : Prop :=
  calls (normal [l]) = [] /\ throws [l] = 0 /\ (forall b, l <> XOk (LRet b)) /\ forall k, l <> XOk (LFlush k).

Lemma io_idle : forall (x : xst block) l x', w_pc (x_w x) = Idle -> w_called l = false -> xstep x l x' ->
  w_mem (x_w x') = w_mem (x_w x) /\ w_held (x_w x') = w_held (x_w x) /\ w_pc (x_w x') = Idle /\ calm l.
Proof.
  intros x l x' P C H. inversion H; subst; xproj; try congruence.
  - match goal with K : cstep _ _ _ |- _ => inversion K; subst; discriminate end.
  - match goal with K : istep _ _ _ |- _ => inversion K; subst; congruence end.
  - match goal with K : estep _ _ _ |- _ => inversion K; subst; xproj end;
      unfold calm; csplit; auto; discriminate.
  - unfold calm; csplit; auto; discriminate.
Qed.

Lemma get_step : forall (x : xst block) l x', getting (w_pc (x_w x)) -> w_called l = false -> xstep x l x' ->
  w_mem (x_w x') = w_mem (x_w x) /\ calls (normal [l]) = [] /\ (forall k, l <> XOk (LFlush k)) /\
  ((getting (w_pc (x_w x')) /\ w_held (x_w x') = w_held (x_w x) /\ calm l) \/
   (w_pc (x_w x') = Idle /\ exists b, l = XOk (LRet b) /\ w_held (x_w x') = b :: w_held (x_w x)) \/
   (w_pc (x_w x') = Idle /\ l = XThrow /\ w_held (x_w x') = w_held (x_w x))).
Proof.
  intros x l x' P C H. inversion H; subst; xproj;
    try (match goal with K : w_pc _ = _ |- _ => rewrite K in P; destruct P end; fail).
  - match goal with K : cstep _ _ _ |- _ => inversion K; subst; discriminate end.
  - match goal with K : istep _ _ _ |- _ => inversion K; subst; xproj end;
      try (match goal with K : w_pc _ = _ |- _ => rewrite K in P; destruct P end; fail);
      (csplit; [auto|auto|discriminate|]);
      first [left; csplit; [first [exact Logic.I|assumption]|auto|unfold calm; csplit; auto; discriminate]
            |right; left; split; [auto|]; eexists; split; reflexivity].
  - match goal with K : estep _ _ _ |- _ => inversion K; subst; xproj end;
      (csplit; [auto|auto|discriminate|]); left; csplit; auto; unfold calm; csplit; auto; discriminate.
  - csplit; auto; try discriminate. left; csplit; auto; unfold calm; csplit; auto; discriminate.
  - csplit; auto; try discriminate. 
  - csplit; auto; try discriminate. 
  - csplit; auto; try discriminate. 
Qed.

Lemma xsys_run : forall (x : xst block) t x', xsys x t x' -> xrun x t x'.
Proof.
  intros x t x' H. induction H; [constructor|]. eapply xrun_front; eauto.
Qed.

Definition quiet (t : list (xlabel block)) : Prop :=
  calls (normal t) = [] /\ (forall k, ~ In (XOk (LFlush k)) t).

Lemma calls_cons : forall (l : xlabel block) t, calls (normal (l :: t)) = calls (normal [l]) ++ calls (normal t).
Proof. intros l t. change (l :: t) with ([l] ++ t). rewrite normal_app, calls_app. auto. Qed.
Lemma throws_cons : forall (l : xlabel block) t, throws (l :: t) = throws [l] + throws t.
Proof. intros l t. change (l :: t) with ([l] ++ t). rewrite throws_app. auto. Qed.

Lemma idle_xsys : forall (x : xst block) t x', xsys x t x' -> w_pc (x_w x) = Idle ->
  w_mem (x_w x') = w_mem (x_w x) /\ w_held (x_w x') = w_held (x_w x) /\ w_pc (x_w x') = Idle /\
  quiet t /\ throws t = 0.
Proof.
  intros x t x' H. induction H; intros P.
  - csplit; auto. split; [auto|]. intros k [].
  - destruct (io_idle _ _ _ P H H0) as (M & Hh & P' & (C1 & C2 & _ & C4)).
    destruct (IHxsys P') as (M' & Hh' & P'' & (Q1 & Q2) & T). csplit; auto; try congruence.
    + split.
      * rewrite calls_cons, C1, Q1. auto.
      * intros k [E|E]; [eapply C4; eauto|eapply Q2; eauto].
    + rewrite throws_cons. lia.
Qed.

(** A call that is over has returned a buffer or thrown; one that is not has not. *)
Lemma get_xsys : forall (x : xst block) t x', xsys x t x' -> getting (w_pc (x_w x)) ->
  w_mem (x_w x') = w_mem (x_w x) /\ quiet t /\
  (getting (w_pc (x_w x')) \/ w_pc (x_w x') = Idle) /\
  (w_pc (x_w x') <> Idle -> w_held (x_w x') = w_held (x_w x) /\ throws t = 0).
Proof.
  intros x t x' H. induction H; intros P.
  - csplit; auto. split; [auto|intros k []].
  - destruct (get_step _ _ _ P H H0) as (M & C & F & X).
    assert (Q : forall u, quiet u -> quiet (l :: u)).
    { intros u (Q1 & Q2). split; [rewrite calls_cons, C, Q1; auto|].
      intros k [E|E]; [eapply F; eauto|eapply Q2; eauto]. }
    destruct X as [(G & Hh & (_ & T & _))|X].
    + destruct (IHxsys G) as (M' & Q' & G' & N). csplit; auto; try congruence.
      intros E. destruct (N E) as (N1 & N2). split; [congruence|]. rewrite throws_cons. lia.
    + assert (I : w_pc (x_w x2) = Idle) by (destruct X as [(I & _)|(I & _)]; auto).
      destruct (idle_xsys _ _ _ H1 I) as (M' & _ & I' & Q' & _). csplit; auto; congruence.
Qed.

Lemma xret : forall (x : xst block) b x', xstep x (XOk (LRet b)) x' ->
  w_pc (x_w x) <> Idle /\ w_held (x_w x') = b :: w_held (x_w x) /\ w_pc (x_w x') = Idle /\
  w_mem (x_w x') = w_mem (x_w x).
Proof.
  intros x b x' H. inversion H; subst; xproj; match goal with K : _ _ (LRet b) _ |- _ => inversion K; subst; xproj end;
    csplit; auto; congruence.
Qed.

Lemma xthrow : forall (x : xst block) x', xstep x XThrow x' -> getting (w_pc (x_w x)) ->
  w_held (x_w x') = w_held (x_w x) /\ w_pc (x_w x') = Idle /\ w_mem (x_w x') = w_mem (x_w x).
Proof.
  intros x x' H P. destruct (get_step x XThrow x' P eq_refl H) as (M & _ & _ & [(_ & _ & (_ & Q & _))|[(_ & b & Q & _)|(X1 & _ & X2)]]);
    try discriminate; csplit; auto.
Qed.

Lemma xfill : forall (x : xst block) b a x1, xstep x (XOk (LFill b a)) x1 ->
  w_mem (x_w x1) = updn (w_mem (x_w x)) b a /\ w_held (x_w x1) = w_held (x_w x) /\ w_pc (x_w x1) = Idle.
Proof.
  intros x b a x1 H. inversion H; subst; xproj; match goal with K : _ _ (LFill b a) _ |- _ => inversion K; subst; xproj end; auto.
Qed.

Lemma xwrite : forall (x : xst block) b d a x1, xstep x (XOk (LWrite b d a)) x1 -> w_held (x_w x) = [b] ->
  w_mem (x_w x1) = w_mem (x_w x) /\ w_held (x_w x1) = [] /\ a = w_mem (x_w x) b /\ getting (w_pc (x_w x1)).
Proof.
  intros x b d a x1 H E. inversion H; subst; xproj;
    match goal with K : _ _ (LWrite _ _ _) _ |- _ => inversion K; subst; xproj end. csplit; auto.
  - match goal with K : w_held _ = ?h1 ++ _ :: _ |- _ => rewrite E in K; destruct h1 as [|z h1]; cbn in K; inversion K; auto; destruct h1; discriminate end.
  - unfold enter_write. destruct (w_bs (x_w x) <=? length (w_batch (x_w x))); exact Logic.I.
Qed.

Lemma xget : forall (x : xst block) x1, xstep x (XOk LGet) x1 ->
  w_mem (x_w x1) = w_mem (x_w x) /\ w_held (x_w x1) = w_held (x_w x) /\ getting (w_pc (x_w x1)).
Proof.
  intros x x1 H. inversion H; subst; xproj; match goal with K : _ _ LGet _ |- _ => inversion K; subst; xproj end;
    csplit; auto; exact Logic.I.
Qed.

Variables (nb bt : nat) (mem0 : nat -> block) (bids0 : nat -> bid) (disk0 : bid -> block) (bids : nat -> bid).
Let x0 := x_init nb bt mem0 bids0 disk0.
Hypothesis Hmem : forall b, length (mem0 b) = B.

Record EInv (recs : list R) (tr : list (xlabel block)) (e : est R) : Prop := mkEInv {
  ei_run : xrun x0 tr (e_x e);
  ei_disc : x_disciplined tr;
  ei_pc : w_pc (x_w (e_x e)) = Idle;
  ei_held : w_held (x_w (e_x e)) = if e_thrown e then [] else [e_cur e];
  ei_elem : e_elem e < B;
  ei_zero : e_thrown e = true -> e_elem e = 0;
  ei_mem : forall b, length (w_mem (x_w (e_x e)) b) = B;
  ei_bids : map fst (calls (normal tr)) = map bids (seq 0 (e_bid e));
  ei_len : forall d a, In (d, a) (calls (normal tr)) -> length a = B;
  ei_recs : recs = concat (map snd (calls (normal tr))) ++ firstn (e_elem e) (w_mem (x_w (e_x e)) (e_cur e));
  ei_throws : throws tr = if e_thrown e then 1 else 0;
  ei_fails : e_thrown e = true -> fails tr <> []
}.

Lemma normal_in : forall (t : list (xlabel block)) l, In l (normal t) <-> In (XOk l) t.
Proof.
  induction t as [|[] t IH]; intros l'; cbn; rewrite ?IH; split; intuition congruence.
Qed.

Lemma xdisc_app : forall (t1 t2 : list (xlabel block)), x_disciplined t1 -> ~ In (XOk (LFlush true)) t2 ->
  x_disciplined (t1 ++ t2).
Proof.
  unfold x_disciplined, disciplined. intros t1 t2 H1 H2 Q. rewrite normal_app in Q. apply in_app_or in Q.
  destruct Q; auto. apply H2. apply normal_in; auto.
Qed.

Lemma xrun_one : forall (x : xst block) l x', xstep x l x' -> xrun x [l] x'.
Proof. intros. eapply xrun_front; eauto. constructor. Qed.

Lemma erun_inv : forall recs tr e, erun B x0 bids recs tr e -> EInv recs tr e.
Proof.
  intros recs tr e H. induction H.
  - (* constructor *)
    destruct (xget _ _ H) as (M1 & Hh1 & G1). change (w_mem (x_w x0)) with mem0 in M1.
    change (w_held (x_w x0)) with (@nil nat) in Hh1.
    destruct (get_xsys _ _ _ H0 G1) as (M2 & (C & F) & _ & N).
    destruct (xret _ _ _ H1) as (P & Hh' & P' & M'). destruct (N P) as (Hh2 & T).
    assert (Ec : calls (normal (XOk LGet :: t ++ [XOk (LRet b)])) = []).
    { cbn [normal calls]. rewrite normal_app, calls_app, C. reflexivity. }
    constructor; cbn [e_x e_cur e_elem e_bid e_thrown]; rewrite ?Ec; auto.
    + eapply xrun_front; [exact H|]. eapply xrun_app; [apply xsys_run; eauto|]. apply xrun_one; auto.
    + intros Q. apply normal_in in Q. destruct Q as [Q|Q]; [discriminate|]. apply in_app_or in Q.
      destruct Q as [Q|[Q|[]]]; [eapply F; eauto|discriminate].
    + rewrite Hh', Hh2, Hh1; auto.
    + rewrite M', M2, M1. auto.
    + intros d a [].
    + rewrite throws_cons, throws_app, T. reflexivity.
    + discriminate.
  - (* I/O *)
    destruct IHerun. cbn [e_x e_cur e_elem e_bid e_thrown] in *.
    destruct (io_idle _ _ _ ei_pc0 H0 H1) as (X1 & X2 & X3 & (C1 & C2 & _ & C4)).
    assert (Ec : calls (normal (tr ++ [l])) = calls (normal tr)).
    { rewrite normal_app, calls_app, C1. apply app_nil_r. }
    constructor; cbn [e_x e_cur e_elem e_bid e_thrown]; rewrite ?Ec, ?X1, ?X2, ?X3; auto.
    + econstructor; eauto.
    + apply xdisc_app; auto. intros [Q|[]]. eapply C4; eauto.
    + rewrite throws_app, C2, Nat.add_0_r. auto.
    + intros Q. rewrite fails_app. intros Q'. apply app_eq_nil in Q'. apply ei_fails0; tauto.
  - (* record within the block *)
    destruct IHerun. cbn [e_x e_cur e_elem e_bid e_thrown] in *.
    destruct (xfill _ _ _ _ H1) as (X1 & X2 & X3).
    set (a := set_nth (e_elem e) r (w_mem (x_w (e_x e)) (e_cur e))) in *.
    assert (Ec : calls (normal (tr ++ [XOk (LFill (e_cur e) a)])) = calls (normal tr)).
    { rewrite normal_app, calls_app. cbn. apply app_nil_r. }
    constructor; cbn [e_x e_cur e_elem e_bid e_thrown]; rewrite ?Ec, ?X1, ?X2, ?X3; auto.
    + econstructor; eauto.
    + apply xdisc_app; auto. intros [Q|[]]; discriminate.
    + rewrite ei_held0, H0. auto.
    + discriminate.
    + intros b. unfold updn. destruct (b =? e_cur e); auto. unfold a. rewrite set_nth_length. auto.
    + rewrite updn_same. unfold a. rewrite firstn_set by (rewrite ei_mem0; auto).
      rewrite ei_recs0 at 1. rewrite app_assoc. auto.
    + rewrite throws_app, ei_throws0, H0. auto.
    + discriminate.
  - (* last record of the block *)
    destruct IHerun. cbn [e_x e_cur e_elem e_bid e_thrown] in *. rewrite H0 in *.
    destruct (xfill _ _ _ _ H1) as (X1 & X2 & X3).
    set (a0 := set_nth (e_elem e) r (w_mem (x_w (e_x e)) (e_cur e))) in *.
    destruct (xwrite _ _ _ _ _ H3) as (Y1 & Y2 & Y3 & Y4); [congruence|].
    destruct (get_xsys _ _ _ H4 Y4) as (M2 & (C & F) & _ & N).
    destruct (xret _ _ _ H5) as (P & Hh' & P' & M'). destruct (N P) as (Hh2 & T).
    assert (Ea : a = a0) by (rewrite Y3, X1, updn_same; auto). clear Y3. rewrite Ea in *. clear Ea a.
    assert (La : length a0 = B) by (unfold a0; rewrite set_nth_length; auto).
    assert (Ec : calls (normal (tr ++ XOk (LFill (e_cur e) a0) :: XOk (LWrite (e_cur e) (bids (e_bid e)) a0) :: t ++ [XOk (LRet b)]))
                 = calls (normal tr) ++ [(bids (e_bid e), a0)]).
    { rewrite normal_app, calls_app. cbn [normal calls]. rewrite normal_app, calls_app, C. auto. }
    constructor; cbn [e_x e_cur e_elem e_bid e_thrown]; rewrite ?Ec; auto; try discriminate.
    + eapply xrun_app; [eauto|]. eapply xrun_front; [eauto|]. eapply xrun_front; [eauto|].
      eapply xrun_app; [apply xsys_run; eauto|]. apply xrun_one; auto.
    + apply xdisc_app; auto. intros [Q|[Q|Q]]; try discriminate. apply in_app_or in Q.
      destruct Q as [Q|[Q|[]]]; [eapply F; eauto|discriminate].
    + rewrite Hh', Hh2, Y2; auto.
    + intros b'. rewrite M', M2, Y1, X1. unfold updn. destruct (b' =? e_cur e); auto.
    + rewrite map_app, ei_bids0. rewrite seq_S, map_app. auto.
    + intros d a1 Q. apply in_app_or in Q. destruct Q as [Q|[Q|[]]]; eauto. inversion Q; subst. auto.
    + rewrite map_app, concat_app. cbn [map snd concat]. rewrite !app_nil_r.
      rewrite ei_recs0 at 1. rewrite <- app_assoc. f_equal.
      assert (E : S (e_elem e) = B) by lia.
      rewrite <- (firstn_all a0), La. rewrite <- E. unfold a0.
      rewrite firstn_set by (rewrite ei_mem0; auto). auto.
    + rewrite throws_app. cbn [throws]. rewrite throws_app, T, ei_throws0. reflexivity.
  - (* the same, with an exception *)
    destruct IHerun. cbn [e_x e_cur e_elem e_bid e_thrown] in *. rewrite H0 in *.
    destruct (xfill _ _ _ _ H1) as (X1 & X2 & X3).
    set (a0 := set_nth (e_elem e) r (w_mem (x_w (e_x e)) (e_cur e))) in *.
    destruct (xwrite _ _ _ _ _ H3) as (Y1 & Y2 & Y3 & Y4); [congruence|].
    destruct (get_xsys _ _ _ H4 Y4) as (M2 & (C & F) & G & N).
    assert (P : w_pc (x_w x3) <> Idle) by (inversion H5; subst; congruence).
    destruct (N P) as (Hh2 & T). destruct G as [G|G]; [|congruence].
    destruct (xthrow _ _ H5 G) as (Hh' & P' & M').
    assert (Ea : a = a0) by (rewrite Y3, X1, updn_same; auto). clear Y3. rewrite Ea in *. clear Ea a.
    assert (La : length a0 = B) by (unfold a0; rewrite set_nth_length; auto).
    set (t5 := XOk (LFill (e_cur e) a0) :: XOk (LWrite (e_cur e) (bids (e_bid e)) a0) :: t).
    assert (Et : tr ++ XOk (LFill (e_cur e) a0) :: XOk (LWrite (e_cur e) (bids (e_bid e)) a0) :: t ++ [XThrow]
              = (tr ++ t5) ++ [XThrow]) by (unfold t5; rewrite <- app_assoc; reflexivity).
    assert (Ec : calls (normal ((tr ++ t5) ++ [XThrow])) = calls (normal tr) ++ [(bids (e_bid e), a0)]).
    { rewrite !normal_app, !calls_app. unfold t5. cbn [normal calls]. rewrite C, app_nil_r. auto. }
    assert (Rn : xrun x0 (tr ++ t5) x3).
    { eapply xrun_app; [eauto|]. unfold t5. eapply xrun_front; [eauto|]. eapply xrun_front; [eauto|]. apply xsys_run; eauto. }
    assert (Dn : x_disciplined (tr ++ t5)).
    { apply xdisc_app; auto. intros [Q|[Q|Q]]; try discriminate. eapply F; eauto. }
    assert (Rn' : xrun x0 ((tr ++ t5) ++ [XThrow]) x4) by (econstructor; eauto).
    rewrite Et.
    constructor; cbn [e_x e_cur e_elem e_bid e_thrown]; rewrite ?Ec; auto.
    + apply xdisc_app; auto. intros [Q|[]]; discriminate.
    + rewrite Hh', Hh2, Y2; auto.
    + intros b'. rewrite M', M2, Y1, X1. unfold updn. destruct (b' =? e_cur e); auto.
    + rewrite map_app, ei_bids0. rewrite seq_S, map_app. auto.
    + intros d a1 Q. apply in_app_or in Q. destruct Q as [Q|[Q|[]]]; eauto. inversion Q; subst. auto.
    + rewrite map_app, concat_app. cbn [map snd concat firstn]. rewrite !app_nil_r.
      rewrite ei_recs0 at 1. rewrite <- app_assoc. f_equal.
      assert (E : S (e_elem e) = B) by lia.
      rewrite <- (firstn_all a0), La. rewrite <- E. unfold a0.
      rewrite firstn_set by (rewrite ei_mem0; auto). auto.
    + rewrite !throws_app. unfold t5. cbn [throws]. rewrite T, ei_throws0. reflexivity.
    + intros _. rewrite fails_app. cbn [fails]. rewrite app_nil_r.
      eapply C88_throw_only_after_failure; eauto.
Qed.

(** ** The blocks on disk *)

Lemma fails_bad : forall tr x, xrun x0 tr x -> x_disciplined tr -> forall d, In d (fails tr) ->
  exists i r, In i (x_bad x) /\ nth_error (w_reqs (x_w x)) i = Some r /\ r_bid r = d.
Proof.
  intros tr x H. remember x0 as y eqn:Ey. induction H; intros D d Q; [destruct Q|]. subst x1.
  assert (D' : x_disciplined tr) by (eapply WriterErrProps.disc_app; eauto).
  rewrite fails_app in Q. apply in_app_or in Q.
  assert (Old : In d (fails tr) -> x_bad x3 = x_bad x2 \/ (exists i, x_bad x3 = i :: x_bad x2) ->
     (forall i r, In i (x_bad x2) -> nth_error (w_reqs (x_w x2)) i = Some r -> nth_error (w_reqs (x_w x3)) i = Some r) ->
     exists i r, In i (x_bad x3) /\ nth_error (w_reqs (x_w x3)) i = Some r /\ r_bid r = d).
  { intros Q' Eb Er. destruct (IHxrun eq_refl D' _ Q') as (i & r & K1 & K2 & K3). exists i, r. csplit; auto.
    destruct Eb as [->|(j & ->)]; cbn; auto. }
  destruct Q as [Q|Q].
  - apply Old; auto; inversion H0; subst; xproj; eauto.
    + intros i r _ E. match goal with K : cstep _ _ _ |- _ => inversion K; subst; xproj; auto end.
    + intros i r _ E. eapply istep_reqs; eauto.
    + intros i r Hi E. match goal with K : bad_stay _ _ |- _ => rewrite (K i Hi) end. auto.
  - destruct l; cbn in Q; try tauto. destruct Q as [<-|[]]. inversion H0; subst; xproj.
    exists i, r. csplit; cbn; auto.
Qed.

Lemma disk_keep : forall (d : bid) (ws : list (bid * block)) f, ~ In d (map fst ws) ->
  fold_left (fun f w => updb f (fst w) (snd w)) ws f d = f d.
Proof.
  induction ws as [|(d1, a1) ws IH]; intros f N; cbn [fold_left fst snd]; auto. cbn in N.
  rewrite IH by tauto. unfold updb. destruct (bid_eqb d d1) eqn:E; auto.
  apply bid_eqb_eq in E. subst. tauto.
Qed.

Lemma disk_has : forall (ws : list (bid * block)) f d a, NoDup (map fst ws) -> In (d, a) ws ->
  disk_after f ws d = a.
Proof.
  unfold disk_after. induction ws as [|(d1, a1) ws IH]; intros f d a N H; [destruct H|].
  cbn [fold_left fst snd map] in *. inversion N; subst. destruct H as [H|H]; [|auto].
  inversion H; subst. rewrite disk_keep by auto. unfold updb.
  assert (bid_eqb d d = true) as -> by (apply bid_eqb_eq; auto). auto.
Qed.

(** If no block is written twice, a block that was served is on disk. *)
Lemma served_disk : forall tr x, xrun x0 tr x -> x_disciplined tr -> NoDup (map fst (calls (normal tr))) ->
  forall d a, In (d, a) (served (normal tr)) -> x_disk x d = Some a.
Proof.
  intros tr x Rn D ND d a Q. pose proof (xrun_inv _ _ _ _ _ _ _ Rn D) as V.
  destruct (xi_inv _ _ _ _ _ V) as (limbo & I). pose proof (v_data _ _ _ _ _ _ I) as P.
  assert (ND' : NoDup (map fst (served (normal tr) ++ posted_of (w_mem (x_w x)) (w_reqs (x_w x)) ++
     batch_of (w_mem (x_w x)) (w_bids (x_w x)) (w_batch (x_w x)) ++ pcd (x_w x)))).
  { eapply Permutation_NoDup; [apply Permutation_map; exact P|auto]. }
  rewrite map_app in ND'.
  unfold x_disk. destruct (x_torn x d) eqn:T.
  - exfalso. apply (xi_torn _ _ _ _ _ V) in T. destruct (fails_bad _ _ Rn D _ T) as (i & r & K1 & K2 & K3).
    destruct (xi_bad _ _ _ _ _ V i K1) as (r' & K4 & K5). assert (r' = r) by congruence. subst r'.
    apply (nodup_app_not _ _ d ND').
    + change d with (fst (d, a)). apply in_map; auto.
    + rewrite map_app. apply in_or_app; left. apply in_map_iff.
      exists (d, w_mem (x_w x) (r_buf r)). split; auto. unfold posted_of. apply in_flat_map.
      exists r. split; [eapply nth_error_In; eauto|]. rewrite K5, K3. cbn; auto.
  - f_equal. rewrite (v_disk _ _ _ _ _ _ I). apply disk_has; auto. clear - ND'. revert ND'. generalize (map fst (served (normal tr))). intros l ND'.
    induction l; constructor; inversion ND'; subst; auto. intros Q. apply H1. apply in_or_app; auto.
Qed.

(** A block that was never passed to the writer is unchanged. *)
Lemma other_disk : forall tr x, xrun x0 tr x -> x_disciplined tr ->
  forall d, ~ In d (map fst (calls (normal tr))) -> x_disk x d = Some (disk0 d).
Proof.
  intros tr x Rn D d N. pose proof (xrun_inv _ _ _ _ _ _ _ Rn D) as V.
  destruct (xi_inv _ _ _ _ _ V) as (limbo & I). pose proof (v_data _ _ _ _ _ _ I) as P.
  assert (N' : forall a, ~ In (d, a) (served (normal tr) ++ posted_of (w_mem (x_w x)) (w_reqs (x_w x)) ++
     batch_of (w_mem (x_w x)) (w_bids (x_w x)) (w_batch (x_w x)) ++ pcd (x_w x))).
  { intros a Q. apply N. change d with (fst (d, a)). apply in_map.
    apply (Permutation_in _ (Permutation_sym P)); auto. }
  unfold x_disk. destruct (x_torn x d) eqn:T.
  - exfalso. apply (xi_torn _ _ _ _ _ V) in T. destruct (fails_bad _ _ Rn D _ T) as (i & r & K1 & K2 & K3).
    destruct (xi_bad _ _ _ _ _ V i K1) as (r' & K4 & K5). assert (r' = r) by congruence. subst r'.
    apply (N' (w_mem (x_w x) (r_buf r))). apply in_or_app; right. apply in_or_app; left.
    unfold posted_of. apply in_flat_map.
    exists r. split; [eapply nth_error_In; eauto|]. rewrite K5, K3. cbn; auto.
  - f_equal. rewrite (v_disk _ _ _ _ _ _ I). unfold disk_after. apply disk_keep.
    intros Q. apply in_map_iff in Q. destruct Q as ((d', a) & <- & Q). apply (N' a). apply in_or_app; auto.
Qed.

End OStream.
