(** The invariant of the block store. *)

From Coq Require Import String Ascii.
From Coq Require Import ZArith List Bool Arith Lia Permutation.
From Verif Require Import AllocModel AllocSpec AllocProofs AllocInv AllocMain ManagerModel ManagerSpec
  ManagerProofs ManagerMain FileModel FileSpec StoreModel StoreSpec StoreProofs.
Import ListNotations.
Local Open Scope Z_scope.

(** ** Block ids *)

Lemma bid_eqb_spec : forall x y, bid_eqb x y = true <-> x = y.
Proof.
  intros [sx ox zx tx] [sy oy zy ty]. unfold bid_eqb. cbn [b_storage b_offset b_size b_tsize].
  rewrite !andb_true_iff, !Z.eqb_eq. split.
  - intros (((A & ->) & ->) & ->). destruct sx as [|dx|], sy as [|dy|]; cbn in A; try discriminate; auto.
    apply Nat.eqb_eq in A. subst. auto.
  - intros E. inversion E; subst. repeat split; auto. destruct sy; cbn; auto. apply Nat.eqb_refl.
Qed.

Lemma bid_eqb_refl : forall b, bid_eqb b b = true.
Proof. intros b. apply bid_eqb_spec. auto. Qed.

Lemma bid_eqb_ne : forall x y, x <> y -> bid_eqb x y = false.
Proof. intros x y N. destruct (bid_eqb x y) eqn:E; auto. apply bid_eqb_spec in E. contradiction. Qed.

(** ** Held blocks *)

Lemma held_where : forall cfgs c b, mreachable cfgs true c -> In b (mc_held c) ->
  (0 < len_of b)%nat /\ exists a, nth_error (m_allocs (mc_m c)) (disk_of b) = Some a /\
    (off_of b + len_of b <= Z.to_nat (disk_bytes a))%nat /\ 0 <= b_size b.
Proof.
  intros cfgs c b R H. destruct (held_inside _ _ _ _ R H) as (d & a & E & Ea & P & I & _).
  unfold disk_of, off_of, len_of. rewrite E. destruct I as (I1 & I2).
  unfold range_of in *. cbn [fst snd] in *.
  split; [lia|]. exists a. split; auto. split; lia.
Qed.

Lemma held_apart : forall cfgs c i j b b', mreachable cfgs true c -> i <> j ->
  nth_error (mc_held c) i = Some b -> nth_error (mc_held c) j = Some b' -> disk_of b = disk_of b' ->
  apart (off_of b) (len_of b) (off_of b') (len_of b').
Proof.
  intros cfgs c i j b b' R N E E' D.
  destruct (held_inside _ _ _ _ R (nth_error_In _ _ E)) as (d & a & S1 & _ & P & (I1 & I2) & _).
  destruct (held_inside _ _ _ _ R (nth_error_In _ _ E')) as (d' & a' & S1' & _ & P' & (I1' & I2') & _).
  assert (SE : b_storage b = b_storage b').
  { unfold disk_of in D. rewrite S1, S1' in *. congruence. }
  pose proof (held_disjoint _ _ _ _ _ _ _ R N E E' SE) as DJ.
  unfold apart, off_of, len_of. unfold range_of, disjoint, in_range in *. cbn [fst snd] in *.
  destruct (Z_le_gt_dec (b_offset b' + b_size b') (b_offset b)); [left; lia|].
  destruct (Z_le_gt_dec (b_offset b + b_size b) (b_offset b')); [right; lia|].
  exfalso. apply (DJ (Z.max (b_offset b) (b_offset b'))). lia.
Qed.

Lemma held_nodup : forall cfgs c, mreachable cfgs true c -> NoDup (mc_held c).
Proof.
  intros cfgs c R. apply NoDup_nth_error. intros i j Hi E.
  destruct (Nat.eq_dec i j) as [|N]; auto. exfalso.
  destruct (nth_error (mc_held c) i) as [b|] eqn:Ei; [|apply nth_error_None in Ei; lia].
  pose proof (held_apart _ _ _ _ _ _ R N Ei (eq_sym E) eq_refl) as A.
  destruct (held_where _ _ _ R (nth_error_In _ _ Ei)) as (P & _). unfold apart in A. lia.
Qed.

Lemma held_apart_in : forall cfgs c b b', mreachable cfgs true c -> In b (mc_held c) ->
  In b' (mc_held c) -> b <> b' -> disk_of b = disk_of b' ->
  apart (off_of b) (len_of b) (off_of b') (len_of b').
Proof.
  intros cfgs c b b' R H H' N D. apply In_nth_error in H. apply In_nth_error in H'.
  destruct H as (i & E). destruct H' as (j & E'). eapply (held_apart cfgs c i j); eauto.
  intros ->. congruence.
Qed.

(** ** Steps of the manager *)

Lemma mhistory_snoc : forall n c ops c1 o c2, mhistory n true c ops c1 -> valid_mop n o ->
  mclient_step c1 o = StepOk c2 \/ mclient_step c1 o = StepThrow c2 -> mhistory n true c (ops ++ [o]) c2.
Proof.
  intros n c ops c1 o c2 H V St. induction H; cbn [app].
  - destruct St as [St|St]; [eapply mh_ok|eapply mh_throw]; eauto; constructor.
  - eapply mh_ok; eauto.
  - eapply mh_throw; eauto.
Qed.

Lemma reach_step : forall cfgs c o c', mreachable cfgs true c -> valid_mop (length cfgs) o ->
  mclient_step c o = StepOk c' \/ mclient_step c o = StepThrow c' -> mreachable cfgs true c'.
Proof.
  intros cfgs c o c' (P & m & ops & E & H) V St. split; auto. exists m, (ops ++ [o]). split; auto.
  eapply mhistory_snoc; eauto.
Qed.

Lemma new_grows : forall n c tsize f off sizes c', cinv n c -> valid_mop n (MNew tsize f off sizes) ->
  mclient_step c (MNew tsize f off sizes) = StepOk c' \/
  mclient_step c (MNew tsize f off sizes) = StepThrow c' ->
  (exists got, mc_held c' = mc_held c ++ got) /\
  forall d a, nth_error (m_allocs (mc_m c)) d = Some a ->
    exists a', nth_error (m_allocs (mc_m c')) d = Some a' /\ disk_bytes a <= disk_bytes a'.
Proof.
  intros n c tsize f off sizes c' (I & L & _) Hv St. cbn [mclient_step] in St.
  destruct (valid_mop_fresh _ _ _ _ _ Hv) as (V1 & V2 & V3 & V4). rewrite <- L in V1.
  destruct (manager_new_spec (mc_m c) (mc_held c) f off _ I V1 V2 V3) as (disks & E & SP).
  destruct (manager_new_blocks (mc_m c) f off (map (fresh_bid tsize) sizes)) as [m' b'|m' b'|];
    destruct St as [St|St]; inversion St; subst c'; clear St; cbn [mc_m mc_held].
  - split; [eauto|]. destruct SP as (_ & (m0 & P & ->) & _). cbn [m_allocs].
    destruct P as (_ & _ & _ & _ & _ & _ & _ & _ & _ & P). intros d a Ea.
    destruct (P d a Ea) as (a' & Q1 & _ & Q2 & _). eauto.
  - split; [eauto|]. destruct SP as (_ & (ds1 & d0 & ds2 & _ & _ & P) & _).
    destruct P as (_ & _ & _ & _ & _ & _ & _ & _ & _ & P). intros d a Ea.
    destruct (P d a Ea) as (a' & Q1 & _ & Q2 & _). eauto.
Qed.

Lemma delete_keeps : forall cfgs c i b, mreachable cfgs true c -> nth_error (mc_held c) i = Some b ->
  exists c', mclient_step c (MDelete i) = StepOk c' /\ mc_held c' = remove_nth i (mc_held c) /\
  forall d a, nth_error (m_allocs (mc_m c')) d = Some a ->
    exists a', nth_error (m_allocs (mc_m c)) d = Some a' /\ disk_bytes a = disk_bytes a'.
Proof.
  intros cfgs c i b R E. destruct (mreachable_inv _ _ _ R) as (I & _). cbn [mclient_step]. rewrite E.
  apply (minv_perm _ _ _ (remove_nth_perm _ _ _ E)) in I.
  destruct (manager_delete_ok _ _ _ I) as (m' & E1 & _ & _ & _ & _ & L & Q). rewrite E1.
  eexists. split; [reflexivity|]. cbn [mc_held mc_m]. split; auto.
  intros d a Ea. destruct (nth_error (m_allocs (mc_m c)) d) as [a'|] eqn:Ea'.
  - destruct (Q d a' Ea') as (a2 & Q1 & _ & Q2). exists a'. split; auto. congruence.
  - exfalso. apply nth_error_None in Ea'. assert (d < length (m_allocs m'))%nat by (apply nth_error_Some; congruence). lia.
Qed.

Lemma storage_is : forall cfgs c d a, mreachable cfgs true c ->
  nth_error (m_allocs (mc_m c)) d = Some a -> storage_size a = disk_bytes a /\ 0 <= disk_bytes a.
Proof.
  intros cfgs c d a R E. destruct (mreachable_inv _ _ _ R) as ((I & _) & _).
  specialize (I d a E). destruct I. auto.
Qed.

(** ** Resizing *)

Lemma resize_nth : forall old new disks d a a' k, nth_error old d = Some a -> nth_error new d = Some a' ->
  nth_error disks d = Some k ->
  nth_error (resize_all old new disks) d =
    Some (if storage_size a =? storage_size a' then k else disk_set_size k (Z.to_nat (storage_size a'))).
Proof.
  induction old as [|x old IH]; intros new disks d a a' k E E' K; [destruct d; discriminate|].
  destruct d as [|d]; destruct new as [|x' new]; destruct disks as [|kk disks]; cbn in E, E', K; try discriminate.
  - inversion E; inversion E'; inversion K; subst. reflexivity.
  - cbn [resize_all nth_error]. eapply IH; eauto.
Qed.

Lemma resize_length : forall old new disks, length (resize_all old new disks) = length disks.
Proof.
  induction old as [|x old IH]; intros [|x' new] [|k disks]; cbn [resize_all]; auto. cbn [length].
  f_equal. auto.
Qed.

(** ** The invariant *)

Definition quiet (s : store) (b : bid) : Prop :=
  forall r, In r (st_pending s) -> rq_bid r = b -> rq_data r = None.

Definition exclusive (l : list rq) : Prop :=
  forall i j x y, i <> j -> nth_error l i = Some x -> nth_error l j = Some y ->
    rq_bid x = rq_bid y -> rq_data x = None.

Record sinv (cfgs : list (Z * bool)) (tr : list event) (s : store) : Prop := mk_sinv {
  si_reach : mreachable cfgs true (st_client s);
  si_len : length (st_disks s) = length cfgs;
  si_size : forall d a k, nth_error (m_allocs (mc_m (st_client s))) d = Some a ->
    nth_error (st_disks s) d = Some k -> holds k (Z.to_nat (disk_bytes a));
  si_pend : forall r, In r (st_pending s) -> In (rq_bid r) (mc_held (st_client s)) /\
    forall d, rq_data r = Some d -> expected tr (rq_bid r) = Some d /\ length d = len_of (rq_bid r);
  si_excl : exclusive (st_pending s);
  si_data : forall b d, In b (mc_held (st_client s)) -> expected tr b = Some d -> quiet s b ->
    exists k, nth_error (st_disks s) (disk_of b) = Some k /\
      content k (off_of b) (len_of b) = map Some d
}.

Lemma allocs_length : forall cfgs c, mreachable cfgs true c -> length (m_allocs (mc_m c)) = length cfgs.
Proof. intros cfgs c R. destruct (mreachable_inv _ _ _ R) as (_ & L & _). auto. Qed.

Lemma disk_exists : forall cfgs tr s b, sinv cfgs tr s -> In b (mc_held (st_client s)) ->
  exists k, nth_error (st_disks s) (disk_of b) = Some k /\ holds k (off_of b + len_of b).
Proof.
  intros cfgs tr s b V H. destruct V as [R L Z' P X D].
  destruct (held_where _ _ _ R H) as (_ & a & Ea & Le & _).
  assert (HL : (disk_of b < length (st_disks s))%nat).
  { rewrite L, <- (allocs_length _ _ R). apply nth_error_Some. congruence. }
  destruct (nth_error (st_disks s) (disk_of b)) as [k|] eqn:E; [|apply nth_error_None in E; lia].
  exists k. split; auto. eapply holds_le; [exact Le|]. eapply Z'; eauto.
Qed.

Lemma open_inv : forall cfgs disks s, (forall s g, In (s, g) cfgs -> 0 <= s) ->
  length disks = length cfgs -> (forall k, In k disks -> new_disk k) ->
  open_store cfgs disks = Some s -> sinv cfgs [] s.
Proof.
  intros cfgs disks s C L N O. unfold open_store in O. destruct (new_manager cfgs) as [m| |] eqn:E; try discriminate.
  inversion O; subst s; clear O.
  assert (R : mreachable cfgs true (mk_mclient m [] 0 0)).
  { split; auto. exists m, []. split; auto. constructor. }
  split; cbn [st_client st_disks st_pending mc_held mc_m]; auto.
  - rewrite resize_length. auto.
  - intros d a k Ea Ek.
    destruct (nth_error disks d) as [k0|] eqn:Ek0.
    2:{ apply nth_error_None in Ek0. assert (d < length (m_allocs m))%nat by (apply nth_error_Some; congruence).
        rewrite (allocs_length _ _ R : length (m_allocs m) = length cfgs) in *. lia. }
    rewrite (resize_nth _ _ _ d no_alloc a k0) in Ek; auto.
    2:{ rewrite nth_error_map, Ea. reflexivity. }
    destruct (storage_is cfgs _ d a R Ea) as (S1 & S2).
    cbn [no_alloc storage_size] in Ek. destruct (Z.eqb_spec 0 (storage_size a)).
    + inversion Ek; subst. rewrite <- S1, <- e. cbn. destruct k; cbn; auto; lia.
    + inversion Ek; subst. rewrite S1. apply set_size_holds.
  - intros r [].
  - intros i j x y _ Ex. destruct i; discriminate.
  - intros b d [].
Qed.

(** Changing the disk of one block only. *)
Lemma set_disk_size : forall cfgs tr s d0 k0 k', sinv cfgs tr s -> nth_error (st_disks s) d0 = Some k0 ->
  (forall m, holds k0 m -> holds k' m) ->
  forall d a k, nth_error (m_allocs (mc_m (st_client s))) d = Some a ->
    nth_error (set_nth d0 k' (st_disks s)) d = Some k -> holds k (Z.to_nat (disk_bytes a)).
Proof.
  intros cfgs tr s d0 k0 k' V E Hh d a k Ea Ek. destruct V as [R L Z' P X D].
  assert (d0 < length (st_disks s))%nat by (apply nth_error_Some; congruence).
  destruct (Nat.eq_dec d0 d) as [<-|N].
  - rewrite nth_error_set_nth_eq in Ek by auto. inversion Ek; subst. apply Hh. eapply Z'; eauto.
  - rewrite nth_error_set_nth_ne in Ek by auto. eapply Z'; eauto.
Qed.

Lemma set_disk_data : forall cfgs tr s b0 k0 k', sinv cfgs tr s -> In b0 (mc_held (st_client s)) ->
  nth_error (st_disks s) (disk_of b0) = Some k0 ->
  (forall off' n', (0 < n')%nat -> apart (off_of b0) (len_of b0) off' n' -> content k' off' n' = content k0 off' n') ->
  forall b k, In b (mc_held (st_client s)) -> b <> b0 ->
    nth_error (st_disks s) (disk_of b) = Some k ->
    exists k2, nth_error (set_nth (disk_of b0) k' (st_disks s)) (disk_of b) = Some k2 /\
      content k2 (off_of b) (len_of b) = content k (off_of b) (len_of b).
Proof.
  intros cfgs tr s b0 k0 k' V H0 E Hc b k H N Ek. destruct V as [R L Z' P X D].
  assert (disk_of b0 < length (st_disks s))%nat by (apply nth_error_Some; congruence).
  destruct (Nat.eq_dec (disk_of b0) (disk_of b)) as [Q|Q].
  - rewrite <- Q in *. rewrite nth_error_set_nth_eq by auto. exists k'. split; auto.
    rewrite E in Ek. inversion Ek; subst. apply Hc.
    + destruct (held_where _ _ _ R H); auto.
    + apply (held_apart_in _ _ _ _ R); auto.
  - rewrite nth_error_set_nth_ne by auto. exists k. auto.
Qed.

Lemma remove_nth_in : forall {A} (l : list A) i x y, nth_error l i = Some x -> In y l -> y <> x ->
  In y (remove_nth i l).
Proof.
  intros A l i x y E H N. pose proof (remove_nth_perm _ _ _ E) as P.
  apply (Permutation_in _ P) in H. destruct H; congruence.
Qed.

Lemma nth_remove : forall {A} i (l : list A) j x, nth_error (remove_nth i l) j = Some x ->
  exists j', nth_error l j' = Some x /\ (j' = if (j <? i)%nat then j else S j).
Proof.
  induction i as [|i IH]; intros [|y l] j x E; cbn [remove_nth] in E.
  - destruct j; discriminate.
  - exists (S j). split; auto.
  - destruct j; discriminate.
  - destruct j as [|j]; cbn [nth_error] in E.
    + exists 0%nat. auto.
    + destruct (IH l j x E) as (j' & E' & Q). exists (S j'). split; auto.
      rewrite Q. change (S j <? S i)%nat with (j <? i)%nat. destruct (j <? i)%nat; auto.
Qed.

Lemma exclusive_remove : forall l k, exclusive l -> exclusive (remove_nth k l).
Proof.
  intros l k X i j x y N Ex Ey B. destruct (nth_remove _ _ _ _ Ex) as (i' & Ei & Qi).
  destruct (nth_remove _ _ _ _ Ey) as (j' & Ej & Qj). eapply (X i' j'); eauto.
  subst. destruct (Nat.ltb_spec i k), (Nat.ltb_spec j k); lia.
Qed.

Lemma exclusive_snoc : forall l r, exclusive l ->
  (forall x, In x l -> rq_bid x = rq_bid r -> rq_data x = None /\ rq_data r = None) ->
  exclusive (l ++ [r]).
Proof.
  intros l r X H i j x y N Ex Ey B.
  destruct (Nat.lt_ge_cases i (length l)) as [Hi|Hi].
  - rewrite nth_error_app1 in Ex by auto. destruct (Nat.lt_ge_cases j (length l)) as [Hj|Hj].
    + rewrite nth_error_app1 in Ey by auto. eapply (X i j); eauto.
    + rewrite nth_error_app2 in Ey by auto. destruct (j - length l)%nat as [|q]; [|destruct q; discriminate].
      cbn in Ey. inversion Ey; subst. apply (H x); auto. eapply nth_error_In; eauto.
  - rewrite nth_error_app2 in Ex by auto. destruct (i - length l)%nat as [|q] eqn:Q; [|destruct q; discriminate].
    cbn in Ex. inversion Ex; subst.
    destruct (Nat.lt_ge_cases j (length l)) as [Hj|Hj].
    + rewrite nth_error_app1 in Ey by auto. apply (H y); auto. eapply nth_error_In; eauto.
    + exfalso. assert (j < length (l ++ [x]))%nat by (apply nth_error_Some; congruence).
      assert (i < length (l ++ [x]))%nat by (apply nth_error_Some; rewrite nth_error_app2 by auto; rewrite Q; discriminate).
      rewrite app_length in *. cbn in *. lia.
Qed.

Lemma expected_alloc_old : forall tr got b, ~ In b got -> expected (EAlloc got :: tr) b = expected tr b.
Proof.
  intros tr got b N. cbn [expected]. destruct (existsb (bid_eqb b) got) eqn:E; auto.
  exfalso. apply existsb_exists in E. destruct E as (x & Hx & E). apply bid_eqb_spec in E. subst. auto.
Qed.

Lemma expected_alloc_new : forall tr got b, In b got -> expected (EAlloc got :: tr) b = None.
Proof.
  intros tr got b N. cbn [expected]. replace (existsb (bid_eqb b) got) with true; auto.
  symmetry. apply existsb_exists. exists b. split; auto. apply bid_eqb_refl.
Qed.

Lemma skipn_app_exact : forall {A} (l1 l2 : list A), skipn (length l1) (l1 ++ l2) = l2.
Proof. intros A l1 l2. rewrite skipn_app, skipn_all, Nat.sub_diag. reflexivity. Qed.

Lemma nodup_app_disjoint : forall {A} (l1 l2 : list A) x, NoDup (l1 ++ l2) -> In x l1 -> ~ In x l2.
Proof.
  intros A l1 l2 x N H1 H2. induction l1 as [|y l1 IH]; [destruct H1|].
  cbn in N. inversion N; subst. destruct H1 as [->|H1]; [|auto].
  apply H3. apply in_or_app. auto.
Qed.

Lemma step_new : forall ba cfgs tr s tsize f off sizes, sinv cfgs tr s ->
  allowed (length cfgs) s (SNew tsize f off sizes) ->
  exists s' e, store_step ba s (SNew tsize f off sizes) = Some (s', e) /\ sinv cfgs (e :: tr) s'.
Proof.
  intros ba cfgs tr s tsize f off sizes V A. cbn [allowed] in A. pose proof V as V0.
  destruct V as [R L Z' P X D].
  assert (G : forall c', mclient_step (st_client s) (MNew tsize f off sizes) = StepOk c' \/
    mclient_step (st_client s) (MNew tsize f off sizes) = StepThrow c' ->
    sinv cfgs (EAlloc (skipn (length (mc_held (st_client s))) (mc_held c')) :: tr)
      (mk_store c' (resize_all (m_allocs (mc_m (st_client s))) (m_allocs (mc_m c')) (st_disks s)) (st_pending s))).
  { intros c' St. pose proof (reach_step _ _ _ _ R A St) as R'.
    destruct (new_grows _ _ _ _ _ _ _ (mreachable_inv _ _ _ R) A St) as ((got & Hg) & Gr).
    rewrite Hg, skipn_app_exact.
    pose proof (held_nodup _ _ R') as ND. rewrite Hg in ND.
    assert (Old : forall b, In b (mc_held (st_client s)) -> expected (EAlloc got :: tr) b = expected tr b).
    { intros b Hb. apply expected_alloc_old. eapply nodup_app_disjoint; eauto. }
    assert (Dk : forall d a k, nth_error (m_allocs (mc_m (st_client s))) d = Some a ->
      nth_error (st_disks s) d = Some k -> exists a' k', nth_error (m_allocs (mc_m c')) d = Some a' /\
      nth_error (resize_all (m_allocs (mc_m (st_client s))) (m_allocs (mc_m c')) (st_disks s)) d = Some k' /\
      holds k' (Z.to_nat (disk_bytes a')) /\
      forall o n, (o + n <= Z.to_nat (disk_bytes a))%nat -> content k' o n = content k o n).
    { intros d a k Ea Ek. destruct (Gr d a Ea) as (a' & Ea' & Le).
      destruct (storage_is _ _ _ _ R Ea) as (S1 & S2). destruct (storage_is _ _ _ _ R' Ea') as (S1' & S2').
      exists a'. eexists. split; auto. split; [eapply resize_nth; eauto|].
      rewrite S1, S1'. destruct (Z.eqb_spec (disk_bytes a) (disk_bytes a')) as [Q|Q].
      - rewrite <- Q. split; [eapply Z'; eauto|auto].
      - split; [apply set_size_holds|]. intros o n Hon. apply set_size_content. lia. }
    split; cbn [st_client st_disks st_pending].
    - exact R'.
    - rewrite resize_length. auto.
    - intros d a' k' Ea' Ek'.
      assert (Hd : (d < length cfgs)%nat).
      { rewrite <- (allocs_length _ _ R'). apply nth_error_Some. congruence. }
      destruct (nth_error (m_allocs (mc_m (st_client s))) d) as [a|] eqn:Ea.
      2:{ apply nth_error_None in Ea. rewrite (allocs_length _ _ R) in Ea. lia. }
      destruct (nth_error (st_disks s) d) as [k|] eqn:Ek; [|apply nth_error_None in Ek; lia].
      destruct (Dk d a k Ea Ek) as (a2 & k2 & E1 & E2 & E3 & _). congruence.
    - intros r Hr. destruct (P r Hr) as (P1 & P2). rewrite Hg. split; [apply in_or_app; auto|].
      rewrite Old by auto. auto.
    - auto.
    - intros b d Hb Eb Q. rewrite Hg in Hb. apply in_app_or in Hb. destruct Hb as [Hb|Hb].
      + rewrite Old in Eb by auto. destruct (D b d Hb Eb Q) as (k & Ek & Ec).
        destruct (held_where _ _ _ R Hb) as (_ & a & Ea & Le & _).
        destruct (Dk _ _ _ Ea Ek) as (a2 & k2 & _ & E2 & _ & E4). exists k2. split; auto.
        rewrite E4; auto.
      + rewrite expected_alloc_new in Eb by auto. discriminate. }
  cbn [store_step].
  destruct (mclient_step (st_client s) (MNew tsize f off sizes)) as [c'|c'|] eqn:St.
  - do 2 eexists. split; [reflexivity|]. auto.
  - do 2 eexists. split; [reflexivity|]. auto.
  - exfalso. eapply step_never_bad; eauto.
Qed.

Lemma expected_keep : forall e tr, (forall b, e <> EWritten b false) ->
  (forall l, e <> EAlloc l) -> (forall b d, e <> EWrite b d) -> forall b, expected (e :: tr) b = expected tr b.
Proof.
  intros e tr H1 H2 H3 b. destruct e as [l|x|x d|x|x [|]|x o]; cbn [expected]; auto.
  - exfalso. eapply H2; eauto.
  - exfalso. eapply H3; eauto.
  - exfalso. eapply H1; eauto.
Qed.

Lemma step_delete : forall ba cfgs tr s o i, (1 <= ba)%nat -> sinv cfgs tr s ->
  allowed (length cfgs) s (SDelete o i) ->
  exists s' e, store_step ba s (SDelete o i) = Some (s', e) /\ sinv cfgs (e :: tr) s'.
Proof.
  intros ba cfgs tr s o i Hba V (b & E & Q). pose proof V as V0. destruct V as [R L Z' P X D].
  pose proof (nth_error_In _ _ E) as Hb.
  destruct (delete_keeps _ _ _ _ R E) as (c' & St & Hh & Ha).
  pose proof (reach_step _ _ _ _ R (I : valid_mop (length cfgs) (MDelete i)) (or_introl St)) as R'.
  destruct (disk_exists _ _ _ _ V0 Hb) as (k & Ek & Hk).
  destruct (held_where _ _ _ R Hb) as (Pn & _).
  destruct (disk_discard_spec ba o k (off_of b) (len_of b) Hba Pn Hk) as (k' & Ed & D1 & D2).
  assert (Nb : forall x, In x (mc_held c') -> x <> b).
  { rewrite Hh. intros x Hx ->. pose proof (held_nodup _ _ R) as ND.
    apply (Permutation_NoDup (remove_nth_perm _ _ _ E)) in ND. inversion ND; auto. }
  assert (Sub : forall x, In x (mc_held c') -> In x (mc_held (st_client s))).
  { rewrite Hh. intros x. apply In_remove_nth. }
  exists (mk_store c' (set_nth (disk_of b) k' (st_disks s)) (st_pending s)), (EDelete b). split.
  - cbn [store_step]. rewrite E, St, Ek, Ed. reflexivity.
  - split; cbn [st_client st_disks st_pending].
    + exact R'.
    + rewrite set_nth_length. auto.
    + intros d a kk Ea Ekk. destruct (Ha d a Ea) as (a' & Ea' & Eb). rewrite Eb.
      eapply set_disk_size; eauto.
    + intros r Hr. destruct (P r Hr) as (P1 & P2). split; [|exact P2].
      rewrite Hh. eapply remove_nth_in; eauto.
    + auto.
    + intros x d Hx Ex Qx. change (expected (EDelete b :: tr) x) with (expected tr x) in Ex.
      destruct (D x d (Sub x Hx) Ex Qx) as (kx & Ekx & Ec).
      destruct (set_disk_data cfgs tr s b k k' V0 Hb Ek D2 x kx (Sub x Hx) (Nb x Hx) Ekx) as (k2 & E2 & C2).
      exists k2. split; auto. congruence.
Qed.

Lemma step_write : forall ba cfgs tr s i d, sinv cfgs tr s ->
  allowed (length cfgs) s (SWrite i d) ->
  exists s' e, store_step ba s (SWrite i d) = Some (s', e) /\ sinv cfgs (e :: tr) s'.
Proof.
  intros ba cfgs tr s i d V (b & E & Hl & Q). pose proof V as V0. destruct V as [R L Z' P X D].
  pose proof (nth_error_In _ _ E) as Hb.
  cbn [store_step]. rewrite E. do 2 eexists. split; [reflexivity|].
  assert (Oth : forall x, x <> b -> expected (EWrite b d :: tr) x = expected tr x).
  { intros x N. cbn [expected]. rewrite bid_eqb_ne; auto. }
  split; cbn [st_client st_disks st_pending]; auto.
  - intros r Hr. apply in_app_or in Hr. destruct Hr as [Hr|[<-|[]]].
    + destruct (P r Hr) as (P1 & P2). split; auto. rewrite Oth by auto. auto.
    + cbn [rq_bid rq_data]. split; auto. intros d0 E0. inversion E0; subst. cbn [expected].
      rewrite bid_eqb_refl. split; auto. unfold len_of. lia.
  - apply exclusive_snoc; auto. cbn [rq_bid]. intros x Hx Ex. exfalso. eapply Q; eauto.
  - intros x dx Hx Ex Qx. assert (N : x <> b).
    { intros ->. unfold quiet in Qx. cbn [st_pending] in Qx.
      assert (In (mk_rq b (Some d)) (st_pending s ++ [mk_rq b (Some d)])) as Hi
        by (apply in_or_app; right; left; reflexivity).
      specialize (Qx _ Hi eq_refl). discriminate. }
    rewrite Oth in Ex by auto. apply (D x dx); auto. intros r Hr. apply Qx. cbn [st_pending].
    apply in_or_app; auto.
Qed.

Lemma step_read : forall ba cfgs tr s i, sinv cfgs tr s ->
  allowed (length cfgs) s (SRead i) ->
  exists s' e, store_step ba s (SRead i) = Some (s', e) /\ sinv cfgs (e :: tr) s'.
Proof.
  intros ba cfgs tr s i V (b & E & Q). pose proof V as V0. destruct V as [R L Z' P X D].
  pose proof (nth_error_In _ _ E) as Hb.
  cbn [store_step]. rewrite E. do 2 eexists. split; [reflexivity|].
  split; cbn [st_client st_disks st_pending]; auto.
  - intros r Hr. apply in_app_or in Hr. destruct Hr as [Hr|[<-|[]]].
    + apply P; auto.
    + cbn [rq_bid rq_data]. split; auto. discriminate.
  - apply exclusive_snoc; auto. cbn [rq_bid rq_data]. intros x Hx Ex. split; auto.
    destruct (rq_data x) eqn:Dx; auto. exfalso. eapply (Q x Hx); eauto. congruence.
  - intros x dx Hx Ex Qx. apply (D x dx); auto. intros r Hr. apply Qx. cbn [st_pending].
    apply in_or_app; auto.
Qed.

Lemma remove_nth_other : forall {A} i (l : list A) x, In x (remove_nth i l) ->
  exists j, j <> i /\ nth_error l j = Some x.
Proof.
  intros A i l x H. apply In_nth_error in H. destruct H as (j & E).
  destruct (nth_remove _ _ _ _ E) as (j' & E' & Q). exists j'. split; auto.
  subst. destruct (Nat.ltb_spec j i); lia.
Qed.

Lemma in_remove_or : forall {A} (l : list A) i x y, nth_error l i = Some x -> In y l ->
  y = x \/ In y (remove_nth i l).
Proof.
  intros A l i x y E H. apply (Permutation_in _ (remove_nth_perm _ _ _ E)) in H. destruct H; auto.
Qed.

(** Serving: the event says how it ended, a successful read delivers the
    expected content. *)
Lemma step_serve : forall ba cfgs tr s a k, sinv cfgs tr s ->
  allowed (length cfgs) s (SServe a k) ->
  exists s' e, store_step ba s (SServe a k) = Some (s', e) /\ sinv cfgs (e :: tr) s' /\
    (forall b x d, e = EReadDone b (Some x) -> expected tr b = Some d -> x = map Some d) /\
    (working a -> forall b, e <> EWritten b false /\ e <> EReadDone b None).
Proof.
  intros ba cfgs tr s a k V A. cbn [allowed] in A. pose proof V as V0. destruct V as [R L Z' P X D].
  destruct (nth_error (st_pending s) k) as [r|] eqn:Er; [|apply nth_error_None in Er; lia].
  pose proof (nth_error_In _ _ Er) as Hr. destruct (P r Hr) as (Hb & Pd).
  destruct (disk_exists _ _ _ _ V0 Hb) as (dk & Ek & Hk).
  destruct (held_where _ _ _ R Hb) as (Pn & _).
  set (b := rq_bid r) in *.
  cbn [store_step]. rewrite Er. fold b. rewrite Ek.
  destruct (rq_data r) as [data|] eqn:Dr.
  - (* a write *)
    destruct (Pd data eq_refl) as (Ex & Ln).
    assert (Alone : forall q, In q (remove_nth k (st_pending s)) -> rq_bid q <> b).
    { intros q Hq Eq. destruct (remove_nth_other _ _ _ Hq) as (j & Nj & Ej).
      assert (rq_data r = None) by (eapply (X k j); eauto). congruence. }
    assert (QQ : forall x c disks, x <> b -> quiet (mk_store c disks (remove_nth k (st_pending s))) x -> quiet s x).
    { intros x c disks N Qx q Hq Eq. destruct (in_remove_or _ _ _ _ Er Hq) as [->|Hq']; [fold b in Eq; congruence|].
      apply Qx; auto. }
    pose proof (disk_write_spec a dk (off_of b) data) as W. rewrite Ln in W. specialize (W Pn Hk).
    assert (Wk : working a -> exists x k', disk_write a dk (off_of b) data = (TOk x, k')).
    { intros Wa. apply disk_write_works; auto. rewrite Ln. auto. }
    destruct (disk_write a dk (off_of b) data) as ([x| |] & dk') eqn:Ew; [| |tauto].
    + destruct W as (W1 & W2 & W3). specialize (W3 x eq_refl).
      do 2 eexists. split; [reflexivity|].
      assert (Ke : forall y, expected (EWritten b true :: tr) y = expected tr y) by reflexivity.
      split; [|split; [discriminate|intros _ y; split; discriminate]].
      split; cbn [st_client st_disks st_pending]; auto.
      * rewrite set_nth_length. auto.
      * eapply set_disk_size; eauto.
      * intros q Hq. apply P. eapply In_remove_nth; eauto.
      * apply exclusive_remove; auto.
      * intros y d Hy Ey Qy. rewrite Ke in Ey.
        destruct (bid_eqb y b) eqn:Eb.
        -- apply bid_eqb_spec in Eb. subst y. exists dk'. split.
           ++ apply nth_error_set_nth_eq. apply nth_error_Some. congruence.
           ++ congruence.
        -- assert (N : y <> b) by (intros ->; rewrite bid_eqb_refl in Eb; discriminate).
           destruct (D y d Hy Ey (QQ _ _ _ N Qy)) as (ky & Eky & Ec).
           destruct (set_disk_data cfgs tr s b dk dk' V0 Hb Ek W2 y ky Hy N Eky) as (k2 & E2 & C2).
           exists k2. split; auto. congruence.
    + destruct W as (W1 & W2 & _).
      do 2 eexists. split; [reflexivity|].
      assert (Ke : forall y, y <> b -> expected (EWritten b false :: tr) y = expected tr y).
      { intros y N. cbn [expected]. rewrite bid_eqb_ne; auto. }
      split; [|split; [discriminate|intros Wa; destruct (Wk Wa) as (? & ? & ?); discriminate]].
      split; cbn [st_client st_disks st_pending]; auto.
      * rewrite set_nth_length. auto.
      * eapply set_disk_size; eauto.
      * intros q Hq. destruct (P q (In_remove_nth _ _ _ Hq)) as (Q1 & Q2). split; auto.
        rewrite Ke by auto. auto.
      * apply exclusive_remove; auto.
      * intros y d Hy Ey Qy.
        destruct (bid_eqb y b) eqn:Eb.
        -- cbn [expected] in Ey. rewrite Eb in Ey. discriminate.
        -- assert (N : y <> b) by (intros ->; rewrite bid_eqb_refl in Eb; discriminate).
           rewrite Ke in Ey by auto.
           destruct (D y d Hy Ey (QQ _ _ _ N Qy)) as (ky & Eky & Ec).
           destruct (set_disk_data cfgs tr s b dk dk' V0 Hb Ek W2 y ky Hy N Eky) as (k2 & E2 & C2).
           exists k2. split; auto. congruence.
  - (* a read *)
    assert (Qb : quiet s b).
    { intros q Hq Eq. apply In_nth_error in Hq. destruct Hq as (j & Ej).
      destruct (Nat.eq_dec j k) as [->|N]; [congruence|]. eapply (X j k); eauto. }
    assert (QQ : forall x c disks, quiet (mk_store c disks (remove_nth k (st_pending s))) x -> quiet s x).
    { intros x c disks Qx q Hq Eq. destruct (in_remove_or _ _ _ _ Er Hq) as [->|Hq']; [auto|].
      apply Qx; auto. }
    pose proof (disk_read_spec a dk (off_of b) (len_of b) Pn Hk) as W.
    assert (Wk : working a -> exists x k', disk_read a dk (off_of b) (len_of b) = (TOk x, k')).
    { intros Wa. apply disk_read_works; auto. }
    assert (Fin : forall dk' e, (forall m, holds dk m -> holds dk' m) ->
      (forall off' n', (0 < n')%nat -> apart (off_of b) (len_of b) off' n' -> content dk' off' n' = content dk off' n') ->
      content dk' (off_of b) (len_of b) = content dk (off_of b) (len_of b) ->
      (forall y, expected (e :: tr) y = expected tr y) ->
      sinv cfgs (e :: tr) (mk_store (st_client s) (set_nth (disk_of b) dk' (st_disks s)) (remove_nth k (st_pending s)))).
    { intros dk' e W1 W2 W3 Ke. split; cbn [st_client st_disks st_pending]; auto.
      * rewrite set_nth_length. auto.
      * eapply set_disk_size; eauto.
      * intros q Hq. rewrite Ke. apply P. eapply In_remove_nth; eauto.
      * apply exclusive_remove; auto.
      * intros y d Hy Ey Qy. rewrite Ke in Ey. specialize (D y d Hy Ey (QQ _ _ _ Qy)).
        destruct D as (ky & Eky & Ec). destruct (bid_eqb y b) eqn:Eb.
        -- apply bid_eqb_spec in Eb. subst y. exists dk'. split.
           ++ apply nth_error_set_nth_eq. apply nth_error_Some. congruence.
           ++ congruence.
        -- assert (N : y <> b) by (intros ->; rewrite bid_eqb_refl in Eb; discriminate).
           destruct (set_disk_data cfgs tr s b dk dk' V0 Hb Ek W2 y ky Hy N Eky) as (k2 & E2 & C2).
           exists k2. split; auto. congruence. }
    destruct (disk_read a dk (off_of b) (len_of b)) as ([x| |] & dk') eqn:Ew; [| |tauto].
    + destruct W as (W1 & W2 & W3 & W4). specialize (W4 x eq_refl).
      do 2 eexists. split; [reflexivity|].
      split; [apply Fin; auto|]. split; [|intros _ y; split; discriminate].
      intros y z d Ee Ey. inversion Ee; subst y z.
      destruct (D b d Hb Ey Qb) as (k2 & E2 & C2). congruence.
    + destruct W as (W1 & W2 & W3 & _).
      do 2 eexists. split; [reflexivity|].
      split; [apply Fin; auto|].
      split; [discriminate|]. intros Wa. destruct (Wk Wa) as (? & ? & ?). discriminate.
Qed.

Lemma step_any : forall ba cfgs tr s o, (1 <= ba)%nat -> sinv cfgs tr s -> allowed (length cfgs) s o ->
  exists s' e, store_step ba s o = Some (s', e) /\ sinv cfgs (e :: tr) s' /\
    (forall b x d, e = EReadDone b (Some x) -> expected tr b = Some d -> x = map Some d).
Proof.
  intros ba cfgs tr s o Hba V A.
  assert (G : (exists s' e, store_step ba s o = Some (s', e) /\ sinv cfgs (e :: tr) s') ->
    (forall a k, o <> SServe a k) ->
    exists s' e, store_step ba s o = Some (s', e) /\ sinv cfgs (e :: tr) s' /\
    (forall b x d, e = EReadDone b (Some x) -> expected tr b = Some d -> x = map Some d)).
  { intros (s' & e & E & I) N. exists s', e. split; auto. split; auto. intros b x d -> _. exfalso.
    destruct o as [tsize f off sizes|os i|i data|i|a k]; cbn [store_step] in E.
    - destruct (mclient_step _ _); discriminate.
    - destruct (nth_error _ i); [|discriminate]. destruct (mclient_step _ _); try discriminate.
      destruct (nth_error (st_disks s) _); [|discriminate]. destruct (disk_discard _ _ _ _ _); discriminate.
    - destruct (nth_error _ i); discriminate.
    - destruct (nth_error _ i); discriminate.
    - eapply N; eauto. }
  destruct o as [tsize f off sizes|os i|i data|i|a k].
  - apply G; [|discriminate]. apply step_new; auto.
  - apply G; [|discriminate]. apply step_delete; auto.
  - apply G; [|discriminate]. apply step_write; auto.
  - apply G; [|discriminate]. apply step_read; auto.
  - destruct (step_serve ba cfgs tr s a k V A) as (s' & e & E & I & F & _). eauto.
Qed.

Lemma history_sinv : forall ba cfgs s0 tr s, (1 <= ba)%nat -> sinv cfgs [] s0 ->
  shistory true (length cfgs) ba s0 tr s -> sinv cfgs tr s.
Proof.
  intros ba cfgs s0 tr s Hba V H. induction H; auto.
  destruct (step_any ba cfgs tr s o Hba IHshistory (H0 eq_refl)) as (s2 & e2 & E & I & _). congruence.
Qed.

Lemma history_read : forall ba cfgs s0 newer b x older s d, (1 <= ba)%nat -> sinv cfgs [] s0 ->
  shistory true (length cfgs) ba s0 (newer ++ EReadDone b (Some x) :: older) s ->
  expected older b = Some d -> x = map Some d.
Proof.
  intros ba cfgs s0 newer b x older s d Hba V H E. revert s H.
  induction newer as [|e newer IH]; intros s H; cbn [app] in H.
  - inversion H as [|tr s1 o s2 e2 H1 H2 H3]; subst.
    pose proof (history_sinv _ _ _ _ _ Hba V H1) as I.
    destruct (step_any ba cfgs older s1 o Hba I (H2 eq_refl)) as (s3 & e3 & E3 & _ & F).
    rewrite H3 in E3. inversion E3; subst. eapply F; eauto.
  - inversion H as [|tr s1 o s2 e2 H1 H2 H3]; subst. eauto.
Qed.
