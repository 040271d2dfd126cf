(** The invariant of the block store on top of the kernel AIO queue. *)

From Coq Require Import ZArith List Bool Arith Lia Permutation.
From Verif Require Import WriterProofs.
From Verif Require Import AllocModel ManagerModel ManagerSpec FileModel StoreModel StoreSpec StoreProofs2 StoreProps StoreAModel StoreASpec.
From Verif Require LioModel LioSpec LioProofs AioXferModel AioXferProofs StoreQModel StoreQProofs AsyncProofs.
Import ListNotations.

Notation request_of := StoreQModel.request_of.
Notation reply := StoreQProofs.reply.
Notation flying := AioXferProofs.flying.
Notation fcnt := AioXferProofs.fcnt.
Notation added := LioModel.added.
Notation submitted := LioModel.submitted.
Notation handled := LioModel.handled.

(** ** The queue *)

Lemma sub_step : forall max pc ps q q', LioModel.step max pc ps q q' ->
  submitted q' = submitted q \/ exists a, submitted q' = a ++ submitted q /\ incl a (LioSpec.p_reqs (LioModel.poster q)).
Proof.
  assert (C : forall q i b, submitted (LioModel.complete q i b) = submitted q).
  { intros. unfold LioModel.complete. destruct (existsb _ _); auto. }
  assert (Hs : forall b q h q' h', LioModel.hstep b q h q' h' -> submitted q' = submitted q).
  { intros b q h q' h' H. destruct H; LioProofs.unf; cbn; auto. }
  intros max pc ps q q' H.
  destruct H; LioProofs.unf; cbn [LioModel.submitted]; auto; try (left; eapply Hs; eassumption).
  right. exists a. split; auto. rewrite H0. cbn. apply incl_appl, incl_refl.
Qed.

Definition same_or_step (max : nat) (ps : bool) (q q' : LioModel.st) : Prop := q' = q \/ LioModel.step max false ps q q'.

Section Inv.
Variables (max : nat) (ps : bool) (ba : nat).

Lemma so_reach : forall q q', LioModel.reach max false ps q -> same_or_step max ps q q' -> LioModel.reach max false ps q'.
Proof. intros q q' R [->|T]; auto. eapply LioModel.R_step; eauto. Qed.
Lemma so_handled : forall q q' z, same_or_step max ps q q' -> In z (handled q) -> In z (handled q').
Proof. intros q q' z [->|T]; auto. eapply AioXferProofs.handled_mono; eauto. Qed.
Lemma so_sub : forall q q' i, same_or_step max ps q q' -> In i (submitted q) -> In i (submitted q').
Proof. intros q q' i [->|T] I; auto. destruct (sub_step _ _ _ _ _ T) as [->|(a & -> & _)]; auto. apply in_app_iff. auto. Qed.
Lemma so_nosub : forall q q' i, same_or_step max ps q q' -> ~ flying q i -> ~ In i (submitted q) -> ~ In i (submitted q').
Proof.
  intros q q' i [->|T] F N; auto. destruct (sub_step _ _ _ _ _ T) as [->|(a & -> & A)]; auto.
  rewrite in_app_iff. intros [I|I]; auto. apply F. right. left. auto.
Qed.

Record inv (t : list happening) (s : world) : Prop := {
  i_reach : LioModel.reach max false ps (a_q s);
  i_fly : forall i x, In (i, x) (a_fly s) -> flying (a_q s) i /\
    (exists c e, In (KPost c i e) t /\ request_of e = Some x) /\ (forall a e, ~ In (KEnd i a e) t);
  i_has : forall i, flying (a_q s) i -> exists x, In (i, x) (a_fly s);
  i_keys : NoDup (map fst (a_fly s));
  i_posted : forall c i e, In (KPost c i e) t -> In i (added (a_q s));
  i_ended : forall i a e, In (KEnd i a e) t -> In i (submitted (a_q s)) /\
    exists c e0 x, In (KPost c i e0) t /\ request_of e0 = Some x /\ reply x e;
  i_erased : forall i, In (KErased i) t -> In i (added (a_q s)) /\ ~ flying (a_q s) i /\ ~ In i (submitted (a_q s));
  i_once : forall c i e c' e', In (KPost c i e) t -> In (KPost c' i e') t -> c = c' /\ e = e';
  i_end : forall c i e, In (KPost c i e) t -> (exists x, In (i, x) (a_fly s)) \/
    (exists a e', In (KEnd i a e') t) \/ In (KErased i) t;
  i_told : forall c i b, In (KTold c i b) t -> In (i, b) (handled (a_q s))
}.

Lemma inv_begin : forall s0, inv [] (begin max s0).
Proof.
  intros s0. constructor; cbn [begin a_q a_fly]; try (intros; cbn in *; tauto).
  - apply LioModel.R_init.
  - intros i. unfold flying. cbn. tauto.
  - constructor.
Qed.

Lemma fly_same : forall q q' i, fcnt q' i = fcnt q i -> (flying q' i <-> flying q i).
Proof. intros q q' i E. rewrite !AioXferProofs.flying_cnt, E. tauto. Qed.

(** A step that neither posts a request nor ends one. *)
Lemma inv_same : forall t s q' h c1 d1, inv t s -> same_or_step max ps (a_q s) q' -> added q' = added (a_q s) ->
  (forall i, fcnt q' i = fcnt (a_q s) i) ->
  (h = [] \/ (exists c i b, h = [KTold c i b] /\ In (i, b) (handled q')) \/ exists o e, h = [KCall o e]) ->
  inv (h ++ t) (MkA c1 d1 (a_fly s) q').
Proof.
  intros t s q' h c1 d1 V T Ad F H. destruct V as [V1 V2 V3 V4 V5 V6 V7 V8 V9 V10].
  assert (In1 : forall z, In z t -> In z (h ++ t)) by (intros; apply in_app_iff; auto).
  assert (In2 : forall z, In z (h ++ t) -> (forall c i b, z <> KTold c i b) -> (forall o e, z <> KCall o e) -> In z t).
  { intros z I N1 N2. apply in_app_iff in I. destruct I as [I|I]; auto. exfalso.
    destruct H as [->|[(c & i & b & -> & _)|(o & e & ->)]]; [destruct I| |]; destruct I as [I|[]]; [eapply N1|eapply N2]; eauto. }
  constructor; cbn [a_q a_fly a_client a_disks]; auto.
  - eapply so_reach; eauto.
  - intros i x I. destruct (V2 i x I) as (A & (c & e & B1 & B2) & C). csplit.
    + apply (fly_same _ _ _ (F i)). auto.
    + exists c, e. auto.
    + intros a e' J. apply In2 in J; try discriminate. eapply C; eauto.
  - intros i A. apply V3. apply (fly_same _ _ _ (F i)). auto.
  - intros c i e I. apply In2 in I; try discriminate. rewrite Ad. eauto.
  - intros i a e I. apply In2 in I; try discriminate. destruct (V6 _ _ _ I) as (A & c & e0 & x & B1 & B2 & B3).
    split; [eapply so_sub; eauto|]. exists c, e0, x. auto.
  - intros i I. apply In2 in I; try discriminate. destruct (V7 _ I) as (A & B & C). rewrite Ad. csplit; auto.
    + rewrite (fly_same _ _ _ (F i)). auto.
    + eapply so_nosub; eauto.
  - intros c i e c' e' I J. apply In2 in I; try discriminate. apply In2 in J; try discriminate. eauto.
  - intros c i e I. apply In2 in I; try discriminate. destruct (V9 _ _ _ I) as [A|[(a & e' & A)|A]]; eauto.
    right. left. eauto.
  - intros c i b I. apply in_app_iff in I. destruct I as [I|I]; [|eapply so_handled; eauto].
    destruct H as [->|[(c' & i' & b' & -> & H)|(o & e & ->)]]; [destruct I| |]; destruct I as [I|[]]; inversion I; subst; auto.
Qed.

(** A request is finished or removed. *)
Lemma inv_leave : forall t s q' i k x h c1 d1, inv t s -> LioModel.step max false ps (a_q s) q' -> added q' = added (a_q s) ->
  (forall j, fcnt q' j + (if Nat.eqb j i then 1 else 0) = fcnt (a_q s) j) ->
  nth_error (a_fly s) k = Some (i, x) ->
  (h = KErased i /\ ~ In i (submitted q')) \/ (exists a e, h = KEnd i a e /\ In i (submitted q') /\ reply x e) ->
  inv (h :: t) (MkA c1 d1 (remove_nth k (a_fly s)) q').
Proof.
  intros t s q' i k x h c1 d1 V T Ad F Ek H. destruct V as [V1 V2 V3 V4 V5 V6 V7 V8 V9 V10].
  pose proof (LioProofs.inv_reach _ _ _ V1) as L1. assert (So : same_or_step max ps (a_q s) q') by (right; auto).
  destruct (StoreQProofs.remove_split _ _ _ Ek) as (l1 & l2 & El & Er & _). rewrite Er.
  assert (Hin : forall z, In z (h :: t) -> (forall i a e, z <> KEnd i a e) -> (forall i, z <> KErased i) -> In z t).
  { intros z [<-|I] N1 N2; auto. exfalso. destruct H as [(-> & _)|(a & e & -> & _)]; [eapply N2|eapply N1]; eauto. }
  assert (Lo : forall j, j <> i -> (flying q' j <-> flying (a_q s) j)).
  { intros j N. apply fly_same. specialize (F j). apply Nat.eqb_neq in N. rewrite N in F. lia. }
  assert (Nf : ~ flying q' i).
  { rewrite AioXferProofs.flying_cnt. specialize (F i). rewrite Nat.eqb_refl in F. pose proof (AioXferProofs.fcnt_le _ _ i L1). lia. }
  assert (In0 : In (i, x) (a_fly s)) by (eapply nth_error_In; eauto).
  assert (In1 : forall z, In z (l1 ++ l2) -> In z (a_fly s)).
  { intros z I. rewrite El. apply in_app_iff. apply in_app_iff in I. cbn. tauto. }
  rewrite El, map_app in V4. cbn [map fst] in V4. apply NoDup_remove in V4. destruct V4 as (V4 & V4'). rewrite <- map_app in V4, V4'.
  constructor; cbn [a_q a_fly a_client a_disks]; auto.
  - eapply so_reach; eauto.
  - intros j y I. destruct (V2 j y (In1 _ I)) as (A & (c & e & B1 & B2) & C).
    assert (N : j <> i). { intros Q. apply V4'. rewrite <- Q. change j with (fst (j, y)). apply in_map. auto. }
    csplit.
    + apply Lo; auto.
    + exists c, e. split; auto. right; auto.
    + intros a e' [J|J]; [|eapply C; eauto]. subst h. destruct H as [(H & _)|(a2 & e2 & H & _)]; [discriminate|].
      inversion H; subst. apply N; auto.
  - intros j A.
    assert (N : j <> i) by (intros ->; auto). apply Lo in A; auto. destruct (V3 j A) as (y & I). exists y. rewrite El in I. apply in_app_iff in I. apply in_app_iff.
    destruct I as [I|[I|I]]; auto. inversion I; subst. exfalso. apply N; auto.
  - intros c j e I. apply Hin in I; try discriminate. rewrite Ad. eauto.
  - intros j a e [I|I].
    + subst h. destruct H as [(H & _)|(a2 & e2 & H & H2 & H3)]; [discriminate|]. inversion H; subst.
      split; auto. destruct (V2 _ _ In0) as (_ & (c & e0 & B1 & B2) & _). exists c, e0, x. csplit; auto. right; auto.
    + destruct (V6 _ _ _ I) as (A & c & e0 & y & B1 & B2 & B3). split; [eapply so_sub; eauto|].
      exists c, e0, y. csplit; auto. right; auto.
  - intros j [I|I].
    + subst h. destruct H as [(H & H2)|(a2 & e2 & H & _)]; [|discriminate]. inversion H; subst. csplit; auto.
      rewrite Ad. destruct (V2 _ _ In0) as (_ & (c & e0 & B1 & B2) & _). eauto.
    + destruct (V7 _ I) as (A & B & C). rewrite Ad. csplit; auto; [|eapply so_nosub; eauto].
      destruct (Nat.eq_dec j i) as [Q|D]; [subst j; auto|]. rewrite Lo; auto.
  - intros c j e c' e' I J. apply Hin in I; try discriminate. apply Hin in J; try discriminate. eauto.
  - intros c j e I. apply Hin in I; try discriminate.
    destruct (V9 _ _ _ I) as [(y & A)|[(a & e' & A)|A]].
    + rewrite El in A. apply in_app_iff in A. destruct A as [A|[A|A]].
      * left. exists y. apply in_app_iff. auto.
      * inversion A; subst. right. destruct H as [(-> & _)|(a & e2 & -> & _)]; [right; left; auto|].
        left. exists a, e2. left; auto.
      * left. exists y. apply in_app_iff. auto.
    + right. left. exists a, e'. right; auto.
    + right. right. right; auto.
  - intros c j b I. apply Hin in I; try discriminate. eapply so_handled; eauto.
Qed.

Lemma inv_step : forall t s ho s', inv t s -> astep max ps ba s ho s' ->
  inv (match ho with Some h => h :: t | None => t end) s'.
Proof.
  intros t s ho s' V St. pose proof (LioProofs.inv_reach _ _ _ (i_reach _ _ V)) as L1.
  destruct St as [s q' T Q|s q' c i o s1 e x T E So Rx|s q' l1 i l2 a k x s1 e T E E' Ek So|s q' i k x T E Ek|s c i b I|s o s1 e Ic So].
  - pose proof (LioProofs.inv_step _ _ _ _ L1 T) as L2.
    apply (inv_same t s q' []); auto; [right; auto|apply Q|].
    eapply AioXferProofs.kind_quiet; eauto. eapply AioXferProofs.step_kind; eauto.
  - (* post *)
    destruct (AioXferProofs.kind_post _ _ i (AioXferProofs.step_kind _ _ _ _ L1 T) E) as (N & _ & F).
    destruct V as [V1 V2 V3 V4 V5 V6 V7 V8 V9 V10]. assert (Ss : same_or_step max ps (a_q s) q') by (right; auto).
    assert (Lo : forall j, j <> i -> (flying q' j <-> flying (a_q s) j)).
    { intros j D. apply fly_same. specialize (F j). apply Nat.eqb_neq in D. rewrite D in F. lia. }
    assert (Old : forall j y, In (j, y) (a_fly s) -> j <> i).
    { intros j y I Q. subst j. destruct (V2 _ _ I) as (A & _). apply N. eapply AioXferProofs.flying_added; eauto. }
    assert (NoP : forall c' e', ~ In (KPost c' i e') t) by (intros c' e' I; apply V5 in I; auto).
    assert (NoS : forall a' e', ~ In (KEnd i a' e') t).
    { intros a' e' I. apply V6 in I. destruct I as (_ & c' & e0 & y & I & _). eapply NoP; eauto. }
    assert (G1 : forall j c' e', In (KPost c' j e') (KPost c i e :: t) -> (j = i /\ c' = c /\ e' = e) \/ (j <> i /\ In (KPost c' j e') t)).
    { intros j c2 e2 [I|I]; [inversion I; auto|]. right. split; auto. intros Q. subst. eapply NoP; eauto. }
    constructor; cbn [a_q a_fly a_client a_disks]; auto.
    + eapply so_reach; eauto.
    + intros j y I. apply in_app_iff in I. destruct I as [I|[I|[]]].
      * destruct (V2 _ _ I) as (A & (c' & e' & B1 & B2) & C). pose proof (Old _ _ I) as D. csplit.
        -- apply Lo; auto.
        -- exists c', e'. split; auto. right; auto.
        -- intros a' e2 [J|J]; [discriminate|]. eapply C; eauto.
      * inversion I; subst j y. csplit.
        -- apply AioXferProofs.flying_cnt. rewrite F, Nat.eqb_refl. lia.
        -- exists c, e. split; auto. left; auto.
        -- intros a' e2 [J|J]; [discriminate|]. eapply NoS; eauto.
    + intros j A. destruct (Nat.eq_dec j i) as [Q|D]; [subst j; exists x; apply in_app_iff; cbn; auto|].
      apply Lo in A; auto. destruct (V3 _ A) as (y & I). exists y. apply in_app_iff. auto.
    + rewrite map_app. cbn. apply AsyncProofs.NoDup_snoc; auto. intros I. apply in_map_iff in I. destruct I as ((j & y) & A & B).
      cbn in A. apply (Old _ _ B). auto.
    + intros c' j e' I. rewrite E. apply G1 in I. destruct I as [(-> & _)|(D & I)]; [left; auto|right; eauto].
    + intros j a' e' [I|I]; [discriminate|]. destruct (V6 _ _ _ I) as (A & c' & e0 & y & B1 & B2 & B3).
      split; [eapply so_sub; eauto|]. exists c', e0, y. csplit; auto. right; auto.
    + intros j [I|I]; [discriminate|]. destruct (V7 _ I) as (A & B & C). rewrite E. csplit; [right; auto| |eapply so_nosub; eauto].
      rewrite Lo; auto. intros ->. auto.
    + intros c' j e' c2 e2 I J. apply G1 in I. apply G1 in J.
      destruct I as [(I1 & I2 & I3)|(D & I)]; destruct J as [(J1 & J2 & J3)|(M & J)]; try tauto.
      * split; congruence.
      * eauto.
    + intros c' j e' I. apply G1 in I. destruct I as [(-> & -> & ->)|(D & I)].
      * left. exists x. apply in_app_iff. cbn. auto.
      * destruct (V9 _ _ _ I) as [(y & A)|[(a' & e2 & A)|A]].
        -- left. exists y. apply in_app_iff. auto.
        -- right. left. exists a', e2. right; auto.
        -- right. right. right; auto.
    + intros c' j b [I|I]; [discriminate|]. eapply so_handled; eauto.
  - (* ended *)
    destruct (AioXferProofs.kind_end _ _ _ _ _ _ L1 (AioXferProofs.step_kind _ _ _ _ L1 T) E E') as (Ad & F).
    assert (Ex : nth_error (map snd (a_fly s)) k = Some x) by (rewrite (map_nth_error snd _ _ Ek); auto).
    unfold as_store in So. destruct (StoreQProofs.serve_step _ _ _ _ _ _ _ _ _ Ex So) as (Rp & Cl & _).
    eapply inv_leave; eauto. right. exists a, e. csplit; auto. apply (so_sub (a_q s)); [right; auto|].
    apply LioProofs.cnt_In. rewrite (LioProofs.I_sub _ _ L1).
    assert (I : In i (LioModel.infl (a_q s))) by (rewrite E; apply in_elt). apply LioProofs.cnt_In in I. lia.
  - (* removed *)
    destruct (AioXferProofs.kind_erase _ _ _ (AioXferProofs.step_kind _ _ _ _ L1 T) E) as (W & Ad & _ & F).
    eapply inv_leave; eauto. left. split; auto.
    assert (N : LioProofs.cnt i (submitted (a_q s)) = 0).
    { apply LioProofs.cnt_In in W. pose proof (LioProofs.I_all _ _ L1 i). pose proof (LioProofs.I_once _ _ L1 i).
      rewrite (LioProofs.I_sub _ _ L1), (LioProofs.I_reap _ _ L1).
      assert (Z : LioProofs.cnt i (map fst (filter (fun x => negb (snd x)) (handled (a_q s)))) <= LioProofs.cnt i (LioModel.ccalls (a_q s))).
      { rewrite <- (LioProofs.I_hand _ _ L1). induction (handled (a_q s)) as [|(j & b) l IH]; cbn; auto. destruct b; cbn; destruct (Nat.eqb i j); lia. }
      lia. }
    destruct (sub_step _ _ _ _ _ T) as [->|(a & -> & A)].
    + rewrite LioProofs.cnt_In. lia.
    + rewrite in_app_iff. intros [I|I].
      * apply A in I. apply LioProofs.cnt_In in I. apply LioProofs.cnt_In in W. pose proof (AioXferProofs.fcnt_le _ _ i L1) as X. unfold fcnt in X. lia.
      * apply LioProofs.cnt_In in I. lia.
  - destruct s as [c1 d1 f q]. apply (inv_same t (MkA c1 d1 f q) q [KTold c i b] c1 d1); auto; [left; auto|]. right. left. exists c, i, b. auto.
  - apply (inv_same t s (a_q s) [KCall o e]); auto; [left; auto|]. right. right. eauto.
Qed.

Lemma inv_history : forall s0 t s, history max ps ba (begin max s0) t s -> inv t s.
Proof.
  intros s0 t s H. induction H as [|t s s' H IH St|t s h s' H IH St].
  - apply inv_begin.
  - exact (inv_step _ _ _ _ IH St).
  - exact (inv_step _ _ _ _ IH St).
Qed.

Lemma told_landed : forall t s c i b, inv t s -> In (KTold c i b) t -> ~ flying (a_q s) i.
Proof.
  intros t s c i b V H. eapply AioXferProofs.handled_landed; [eapply LioProofs.inv_reach, i_reach; eauto|]. eapply i_told; eauto.
Qed.

Lemma fly_unfinished : forall t s i x, inv t s -> In (i, x) (a_fly s) -> unfinished t x.
Proof.
  intros t s i x V I. destruct (i_fly _ _ V _ _ I) as (A & (c & e & B1 & B2) & _). exists c, i, e. csplit; auto.
  intros c' b H. exact (told_landed _ _ _ _ _ V H A).
Qed.

(** ** The store underneath *)

Definition keep (gone : nat -> bool) (y : nat * rq) : bool := negb (gone (fst y)).
Definition remain (gone : nat -> bool) (l : list (nat * rq)) : list rq := map snd (filter (keep gone) l).

Lemma remain_app : forall g l1 l2, remain g (l1 ++ l2) = remain g l1 ++ remain g l2.
Proof. intros. unfold remain. rewrite filter_app, map_app. auto. Qed.

Lemma remain_in : forall g l x, In x (remain g l) -> exists i, In (i, x) l.
Proof.
  intros g l x H. unfold remain in H. apply in_map_iff in H. destruct H as ((i & y) & A & B). cbn in A. subst y.
  apply filter_In in B. exists i. apply B.
Qed.

Lemma remain_also : forall g i x l1 l2, NoDup (map fst (l1 ++ (i, x) :: l2)) ->
  remain (and_also g i) (l1 ++ (i, x) :: l2) = remain g (l1 ++ l2).
Proof.
  intros g i x l1 l2 N. rewrite map_app in N. cbn in N. apply NoDup_remove in N. destruct N as (_ & N).
  rewrite !remain_app.
  assert (G : forall l, (forall z, In z l -> fst z <> i) -> remain (and_also g i) l = remain g l).
  { intros l H. unfold remain. f_equal. apply filter_ext_in. intros (j & y) I. unfold keep, and_also. cbn.
    specialize (H _ I). cbn in H. destruct (Nat.eqb_spec j i) as [Q1|Q1]; auto. congruence. }
  rewrite (G l1) by (intros z I Q; apply N; rewrite <- Q, in_app_iff; left; apply in_map; auto).
  change ((i, x) :: l2) with ([(i, x)] ++ l2). rewrite remain_app.
  rewrite (G l2) by (intros z I Q; apply N; rewrite <- Q, in_app_iff; right; apply in_map; auto).
  unfold remain at 2. cbn [filter map keep]. unfold keep, and_also. cbn. rewrite !Nat.eqb_refl. reflexivity.
Qed.

Lemma sim_step : forall n s0 t s ho s', inv t s -> astep max ps ba s ho s' ->
  (forall h, ho = Some h -> minds n t h) ->
  (forall g, (forall i a e, g i = true -> ~ In (KEnd i a e) t) ->
     shistory true n ba s0 (effective g t) (mk_store (a_client s) (a_disks s) (remain g (a_fly s)))) ->
  forall g, (forall i a e, g i = true -> ~ In (KEnd i a e) (match ho with Some h => h :: t | None => t end)) ->
     shistory true n ba s0 (effective g (match ho with Some h => h :: t | None => t end))
       (mk_store (a_client s') (a_disks s') (remain g (a_fly s'))).
Proof.
  intros n s0 t s ho s' V St M IH g Hg.
  assert (Un : forall g x, In x (remain g (a_fly s)) -> unfinished t x).
  { intros g' x I. apply remain_in in I. destruct I as (i & I). eapply fly_unfinished; eauto. }
  assert (Hg' : forall i a e, g i = true -> ~ In (KEnd i a e) t).
  { intros i0 a0 e0 G I. apply (Hg _ a0 e0 G). destruct ho; auto. right; auto. }
  destruct St as [s q' T Q|s q' c i o s1 e x T E So Rx|s q' l1 i l2 a k x s1 e T E E' Ek So|s q' i k x T E Ek|s c i b I|s o s1 e Ic So];
    cbn [a_client a_disks a_fly effective].
  - apply IH. auto.
  - specialize (IH g Hg'). rewrite remain_app. specialize (M _ eq_refl). cbn [minds] in M.
    unfold as_store in So. destruct (StoreQProofs.post_step _ _ _ _ _ _ _ _ So Rx) as (_ & S2 & _ & Al).
    unfold remain at 2. cbn [filter map keep]. unfold keep. cbn [fst snd].
    destruct (g i) eqn:Gq; cbn [negb].
    + cbn. rewrite app_nil_r. exact IH.
    + eapply sh_step; [exact IH| |apply S2]. intros _. apply Al. destruct e as [bs|b|b d|b|b ok|b d]; cbn in Rx; try discriminate.
      * destruct o as [tsize f off sizes|os j|j data|j|a k]; cbn [store_step st_client] in So.
        -- destruct (mclient_step _ _); discriminate.
        -- destruct (nth_error _ j); [|discriminate]. destruct (mclient_step _ _); try discriminate. destruct (nth_error _ _); [|discriminate].
           destruct (disk_discard _ _ _ _ _); discriminate.
        -- destruct (nth_error (mc_held (a_client s)) j) as [b'|] eqn:Eb; inversion So; subst. exists j. csplit; auto; [apply M|].
           intros z I. apply M. eapply Un; eauto.
        -- destruct (nth_error _ j); discriminate.
        -- cbn [st_pending st_disks] in So. destruct (nth_error _ k); [|discriminate]. destruct (nth_error _ _); [|discriminate]. destruct (rq_data _);
             [destruct (disk_write _ _ _ _) as ([y| |] & dk')|destruct (disk_read _ _ _ _) as ([y| |] & dk')]; discriminate.
      * destruct o as [tsize f off sizes|os j|j data|j|a k]; cbn [store_step st_client] in So.
        -- destruct (mclient_step _ _); discriminate.
        -- destruct (nth_error _ j); [|discriminate]. destruct (mclient_step _ _); try discriminate. destruct (nth_error _ _); [|discriminate].
           destruct (disk_discard _ _ _ _ _); discriminate.
        -- destruct (nth_error _ j); discriminate.
        -- destruct (nth_error (mc_held (a_client s)) j) as [b'|] eqn:Eb; inversion So; subst. exists j. csplit; auto.
           intros z I Nd. apply M; auto. eapply Un; eauto.
        -- cbn [st_pending st_disks] in So. destruct (nth_error _ k); [|discriminate]. destruct (nth_error _ _); [|discriminate]. destruct (rq_data _);
             [destruct (disk_write _ _ _ _) as ([y| |] & dk')|destruct (disk_read _ _ _ _) as ([y| |] & dk')]; discriminate.
  - assert (Gq : g i = false).
    { destruct (g i) eqn:Gq; auto. exfalso. eapply Hg; eauto. left; eauto. }
    specialize (IH g Hg'). destruct (StoreQProofs.remove_split _ _ _ Ek) as (m1 & m2 & El & Er & _). rewrite Er.
    assert (Ex : nth_error (map snd (a_fly s)) k = Some x) by (rewrite (map_nth_error snd _ _ Ek); auto).
    unfold as_store in So. destruct (StoreQProofs.serve_step _ _ _ _ _ _ _ _ _ Ex So) as (_ & Cl & S2).
    assert (El2 : remain g (a_fly s) = remain g m1 ++ x :: remain g m2).
    { rewrite El, remain_app. f_equal. unfold remain. cbn [filter map]. unfold keep at 1. cbn [fst snd]. rewrite Gq. reflexivity. }
    rewrite El2 in IH.
    assert (Ex' : nth_error (remain g m1 ++ x :: remain g m2) (length (remain g m1)) = Some x).
    { rewrite nth_error_app2, Nat.sub_diag by lia. auto. }
    pose proof (S2 _ _ Ex') as S3.
    assert (Rm : remove_nth (length (remain g m1)) (remain g m1 ++ x :: remain g m2) = remain g (m1 ++ m2)).
    { rewrite remain_app. clear. induction (remain g m1); cbn; auto. f_equal; auto. }
    rewrite Rm in S3. eapply sh_step; [exact IH| |exact S3]. intros _. cbn. rewrite app_length. cbn. lia.
  - assert (Hin : In (i, x) (a_fly s)) by (eapply nth_error_In; eauto).
    destruct (i_fly _ _ V _ _ Hin) as (_ & _ & NS).
    destruct (StoreQProofs.remove_split _ _ _ Ek) as (l1 & l2 & El & Er & _). rewrite Er.
    pose proof (i_keys _ _ V) as Nd. rewrite El in Nd. rewrite <- (remain_also g i x l1 l2 Nd), <- El. apply IH.
    intros i0 a0 e0 G I. unfold and_also in G. apply orb_true_iff in G. destruct G as [G|G].
    + apply Nat.eqb_eq in G. subst. eapply NS; eauto.
    + eapply Hg'; eauto.
  - apply IH. auto.
  - specialize (IH g Hg'). specialize (M _ eq_refl). unfold as_store in So. destruct (StoreQProofs.call_step _ _ _ _ _ _ _ Ic So) as (_ & S2 & Al).
    eapply sh_step; [exact IH| |apply S2]. intros _.
    destruct o as [tsize f off sizes|os i|i data|i|a k]; cbn in Ic; try discriminate.
    + apply Al. exact M.
    + destruct Al as (b & -> & Al). apply Al. intros z I. cbn in M. apply M. eapply Un; eauto.
Qed.

Lemma follows_older : forall n h t, follows n (h :: t) -> follows n t /\ minds n t h.
Proof.
  intros n h t F. split.
  - intros newer h' older E. apply (F (h :: newer) h' older). rewrite E. auto.
  - apply (F [] h t). auto.
Qed.

Lemma sim_history : forall n s0 t s, st_pending s0 = [] -> history max ps ba (begin max s0) t s -> follows n t ->
  forall g, (forall i a e, g i = true -> ~ In (KEnd i a e) t) ->
    shistory true n ba s0 (effective g t) (mk_store (a_client s) (a_disks s) (remain g (a_fly s))).
Proof.
  intros n s0 t s P0 H. induction H as [|t s s' H IH St|t s h s' H IH St]; intros F g Hg.
  - cbn. destruct s0 as [c d p]; cbn in *. subst p. constructor.
  - apply (sim_step n s0 t s None s'); auto.
    + eapply inv_history; eauto.
    + discriminate.
  - destruct (follows_older _ _ _ F) as (F1 & F2). apply (sim_step n s0 t s (Some h) s'); auto.
    + eapply inv_history; eauto.
    + intros h' Q. inversion Q; subst. auto.
Qed.

Lemma remain_all : forall l, remain (fun _ => false) l = map snd l.
Proof. intros l. unfold remain, keep. cbn. f_equal. induction l; cbn; auto. f_equal; auto. Qed.

Lemma history_prefix : forall w0 t s, history max ps ba w0 t s -> forall newer older, t = newer ++ older ->
  exists s1, history max ps ba w0 older s1.
Proof.
  intros w0 t s H. induction H as [|t s s' H IH St|t s h s' H IH St]; intros newer older E.
  - apply eq_sym, app_eq_nil in E. destruct E as (_ & ->). exists w0. constructor.
  - eauto.
  - destruct newer as [|y newer]; cbn in E.
    + subst older. exists s'. eapply HaSome; eauto.
    + inversion E; subst. eauto.
Qed.

Lemma follows_prefix : forall n newer older, follows n (newer ++ older) -> follows n older.
Proof. intros n newer older F u h v E. apply (F (newer ++ u) h v). rewrite E, app_assoc. auto. Qed.

End Inv.
