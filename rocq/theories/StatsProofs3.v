(** Proofs about the statistics list (C63) and snapshots (C64). *)

From Coq Require Import ZArith List Bool Lia Permutation.
From Verif Require Import StatsModel StatsSpec StatsProofs.
Import ListNotations.
Local Open Scope Z_scope.

Local Arguments Z.add : simpl never.
Local Arguments Z.sub : simpl never.

(** ** create_file_stats *)

(** Well-formed list: ids sorted and not negative, identities distinct. *)
Definition wf_list (l : fs_list) : Prop :=
  ordered (ids l) /\ (forall d, In d (ids l) -> 0 <= d) /\
  NoDup (map fst (l_elems l)) /\
  (forall o, In o (map fst (l_elems l)) -> (o < l_next l)%nat).

Lemma lower_bound_app : forall d l a b,
  lower_bound d l = (a, b) -> l = a ++ b /\ (forall e, In e a -> snd e < d) /\
  (forall e b', b = e :: b' -> d <= snd e).
Proof.
  intros d l; induction l as [|x l]; intros a b H; cbn in H.
  - inversion H; subst. csplit; auto; intros; try contradiction; discriminate.
  - destruct (Z.ltb_spec (snd x) d).
    + destruct (lower_bound d l) as (a', b') eqn:E. inversion H; subst.
      destruct (IHl _ _ eq_refl) as (I1&I2&I3). csplit.
      * cbn; f_equal; auto.
      * intros e [<-|I]; auto.
      * exact I3.
    + inversion H; subst. csplit; auto; intros; try contradiction.
      inversion H1; subst; auto.
Qed.

Lemma ordered_app : forall l1 l2,
  ordered (l1 ++ l2) <-> ordered l1 /\ ordered l2 /\
    (forall x y, In x l1 -> In y l2 -> x <= y).
Proof.
  induction l1; intros; cbn.
  - intuition.
  - rewrite IHl1. split.
    + intros (A & B & C & D). csplit; auto.
      * intros; apply A, in_or_app; auto.
      * intros x y [<-|X] Y; auto. apply A, in_or_app; auto.
    + intros ((A & B) & C & D). csplit; auto.
      intros u U. apply in_app_or in U. destruct U; auto.
Qed.

Lemma create_wf : forall d l l' o,
  wf_list l -> 0 <= d -> create_file_stats d l = (l', o) -> wf_list l'.
Proof.
  intros d l l' o (SO & P & N & M) D H.
  unfold create_file_stats in H.
  destruct (lower_bound d (l_elems l)) as (a, b) eqn:E.
  destruct (lower_bound_app _ _ _ _ E) as (E1 & E2 & E3).
  assert (K : wf_list (MkL (a ++ (l_next l, d) :: b) (S (l_next l)))).
  { unfold wf_list, ids in *; cbn [l_elems l_next]. rewrite E1 in *.
    rewrite !map_app in *. cbn [map].
    apply ordered_app in SO. destruct SO as (S1 & S2 & S3).
    csplit.
    - apply ordered_app. csplit; auto.
      + cbn [snd ordered]. split; auto. intros u U.
        destruct b as [|e b']; [destruct U|]. cbn in U, S2.
        specialize (E3 e b' eq_refl). destruct U as [<-|U]; auto.
        destruct S2 as (S2 & _). specialize (S2 u U). lia.
      + intros x y X [<-|Y]; auto. apply in_map_iff in X.
        destruct X as (e & <- & X). specialize (E2 e X). cbn. lia.
    - intros x X. apply in_app_or in X. destruct X as [X|[<-|X]]; auto;
        apply P, in_or_app; auto.
    - apply NoDup_Add with (a := l_next l) (l := map fst a ++ map fst b).
      + apply Add_app.
      + split; auto. intro I. apply M in I. lia.
    - intros x X. apply in_app_or in X. destruct X as [X|[<-|X]]; auto.
      + assert (In x (map fst a ++ map fst b)) by (apply in_or_app; auto).
        apply M in H0; lia.
      + assert (In x (map fst a ++ map fst b)) by (apply in_or_app; auto).
        apply M in H0; lia. }
  destruct b as [|e b'].
  - inversion H; subst; auto.
  - destruct (negb (snd e =? 0)); inversion H; subst; auto. unfold wf_list; csplit; auto.
Qed.

Lemma last_in : forall A (l : list A) x, l <> [] -> In (last l x) l.
Proof.
  intros A l x H. destruct (exists_last H) as (l' & y & ->).
  rewrite last_last. apply in_or_app; right; left; auto.
Qed.

(** The returned object is always an element of the list. *)
Lemma create_valid : forall d l l' o,
  create_file_stats d l = (l', o) -> exists d', device_of l' o d'.
Proof.
  intros d l l' o H. unfold create_file_stats in H.
  destruct (lower_bound d (l_elems l)) as (a, b) eqn:E.
  destruct (lower_bound_app _ _ _ _ E) as (E1 & _ & _).
  assert (K : exists d', device_of (MkL (a ++ (l_next l, d) :: b) (S (l_next l)))
            (fst (last (a ++ (l_next l, d) :: b) (l_next l, d))) d').
  { unfold device_of; cbn [l_elems].
    eexists. rewrite <- surjective_pairing. apply last_in.
    destruct a; discriminate. }
  destruct b as [|e b'].
  - inversion H; subst; auto.
  - destruct (negb (snd e =? 0)); inversion H; subst; auto.
    exists (snd e). unfold device_of. rewrite E1, <- surjective_pairing.
    apply in_or_app; right; left; auto.
Qed.

(** Objects keep their device. *)
Lemma create_keeps : forall d l l' o o' d',
  create_file_stats d l = (l', o) -> device_of l o' d' -> device_of l' o' d'.
Proof.
  intros d l l' o o' d' H K. unfold create_file_stats in H.
  destruct (lower_bound d (l_elems l)) as (a, b) eqn:E.
  destruct (lower_bound_app _ _ _ _ E) as (E1 & _ & _).
  assert (J : device_of (MkL (a ++ (l_next l, d) :: b) (S (l_next l))) o' d').
  { unfold device_of in *; cbn [l_elems]. rewrite E1 in K.
    apply in_app_or in K. apply in_or_app. destruct K; auto. right; right; auto. }
  destruct b as [|e b'].
  - inversion H; subst; auto.
  - destruct (negb (snd e =? 0)); inversion H; subst; auto.
Qed.

Lemma device_unique : forall l o d1 d2,
  wf_list l -> device_of l o d1 -> device_of l o d2 -> d1 = d2.
Proof.
  intros l o d1 d2 (_&_&N&_) A B. unfold device_of in *.
  induction (l_elems l) as [|x r]; [destruct A|].
  cbn in N. inversion N; subst.
  destruct A as [->|A], B as [B|B].
  - inversion B; auto.
  - exfalso; apply H1. apply in_map_iff. exists (o, d2); auto.
  - subst. exfalso; apply H1. apply in_map_iff. exists (o, d1); auto.
  - auto.
Qed.

(** Exactly when a call returns an object of the requested device. *)
Lemma create_exact : forall d l l' o,
  wf_list l -> 0 <= d -> create_file_stats d l = (l', o) ->
  (device_of l' o d <->
   (forall e, In e (ids l) -> e < d) \/
   (In d (ids l) /\ d <> 0) \/
   (d = 0 /\ forall e, In e (ids l) -> e = 0)).
Proof.
  intros d l l' o W D H.
  assert (W' := create_wf _ _ _ _ W D H).
  destruct W as (SO & P & N & M).
  unfold create_file_stats in H.
  destruct (lower_bound d (l_elems l)) as (a, b) eqn:E.
  destruct (lower_bound_app _ _ _ _ E) as (E1 & E2 & E3).
  unfold ids in *. rewrite E1 in SO, P |- *. rewrite map_app in *.
  apply ordered_app in SO. destruct SO as (S1 & S2 & S3).
  assert (A2 : forall x, In x (map snd a) -> x < d).
  { intros x X. apply in_map_iff in X. destruct X as (e & <- & X). auto. }
  destruct b as [|e b'].
  - inversion H; subst l' o; clear H. rewrite last_last. cbn [fst].
    split; [|intros _].
    + intros _. left. intros x X. apply in_app_or in X. destruct X as [X|[]]; auto.
    + unfold device_of; cbn [l_elems]. apply in_or_app; right; left; auto.
  - specialize (E3 e b' eq_refl).
    destruct (Z.eqb_spec (snd e) 0) as [Z0|Z0]; cbn [negb] in H;
      inversion H; subst l' o; clear H.
    + assert (d = 0) by lia. subst d.
      assert (AN : a = []).
      { destruct a as [|x a]; auto. exfalso.
        assert (snd x < 0) by (apply E2; left; auto).
        assert (0 <= snd x) by (apply P, in_or_app; left; left; auto). lia. }
      subst a. cbn [app] in *.
      assert (LB : forall l0 (x y : nat * Z), l0 <> [] -> last (x :: l0) y = last l0 y)
        by (intros [|? ?] ? ? ?; [congruence|reflexivity]).
      rewrite LB by discriminate.
      set (z := last (e :: b') (l_next l, 0)).
      assert (Zin : In z (e :: b')) by (apply last_in; discriminate).
      assert (Zdev : device_of (MkL ((l_next l, 0) :: e :: b') (S (l_next l))) (fst z) (snd z)).
      { unfold device_of; cbn [l_elems]. right. rewrite <- surjective_pairing. exact Zin. }
      assert (Zmax : forall x, In x (map snd (e :: b')) -> x <= snd z).
      { clear - S2. subst z. revert S2. generalize (l_next l, 0).
        induction (e :: b') as [|x r]; intros q O y Y; [destruct Y|].
        cbn in O. destruct O as (O1 & O2). destruct r as [|x' r].
        - destruct Y as [<-|[]]; cbn; lia.
        - change (last (x :: x' :: r) q) with (last (x' :: r) q).
          destruct Y as [<-|Y]; [|apply IHr; auto].
          apply O1. apply in_map. apply last_in. discriminate. }
      split; intros K.
      * assert (snd z = 0) by (eapply device_unique; eauto).
        right; right; split; auto. intros x X.
        specialize (Zmax x X). specialize (P x X). lia.
      * destruct K as [K|[(K&K')|(K&K')]].
        -- exfalso. assert (snd e < 0) by (apply K; left; auto). lia.
        -- congruence.
        -- assert (snd z = 0) by (apply K', in_map; auto). congruence.
    + assert (Edev : device_of l (fst e) (snd e)).
      { unfold device_of. rewrite E1, <- surjective_pairing.
        apply in_or_app; right; left; auto. }
      split; intros K.
      * assert (snd e = d) by (eapply device_unique; eauto).
        right; left. split; [|congruence].
        apply in_or_app; right; left; auto.
      * assert (snd e = d).
        { destruct K as [K|[(K&K')|(K&K')]].
          - exfalso. assert (snd e < d) by (apply K, in_or_app; right; left; auto). lia.
          - apply in_app_or in K. destruct K as [K|K].
            + apply A2 in K; lia.
            + cbn in K, S2. destruct K as [K|K]; auto.
              destruct S2 as (S2 & _). specialize (S2 d K). lia.
          - exfalso. apply Z0, K', in_or_app; right; left; auto. }
        congruence.
Qed.

(** A device already present (id not 0) gets the existing object. *)
Lemma create_reuse : forall d l l' o,
  wf_list l -> In d (ids l) -> d <> 0 -> create_file_stats d l = (l', o) -> l' = l.
Proof.
  intros d l l' o (SO & P & _ & _) I Z0 H.
  unfold create_file_stats in H.
  destruct (lower_bound d (l_elems l)) as (a, b) eqn:E.
  destruct (lower_bound_app _ _ _ _ E) as (E1 & E2 & E3).
  unfold ids in *. rewrite E1, map_app in I.
  destruct b as [|e b'].
  - exfalso. cbn in I. rewrite app_nil_r in I. apply in_map_iff in I.
    destruct I as (x & <- & X). specialize (E2 x X). lia.
  - specialize (E3 e b' eq_refl).
    assert (0 <= d) by (apply P; rewrite E1, map_app; auto).
    destruct (Z.eqb_spec (snd e) 0) as [Q|Q]; cbn [negb] in H.
    + lia.
    + inversion H; auto.
Qed.

Lemma create_all_spec : forall ds l l' os,
  wf_list l -> increasing ds -> (forall d, In d ds -> 0 <= d) ->
  (forall d e, In d ds -> In e (ids l) -> e < d) ->
  create_all ds l = (l', os) ->
  wf_list l' /\ ids l' = ids l ++ ds /\ length os = length ds /\
  (forall o d, In (o, d) (combine os ds) -> device_of l' o d) /\
  (forall o d, device_of l o d -> device_of l' o d) /\
  NoDup os /\ (forall o, In o os -> (l_next l <= o)%nat).
Proof.
  intros ds; induction ds as [|d ds]; intros l l' os W IN P L H; cbn in H.
  - inversion H; subst. rewrite app_nil_r. csplit; auto.
    + intros o d [].
    + constructor.
    + intros o [].
  - destruct (create_file_stats d l) as (l1, o) eqn:C.
    destruct (create_all ds l1) as (l2, os2) eqn:C2.
    inversion H; subst; clear H. cbn in IN. destruct IN as (IN1 & IN2).
    assert (D0 : 0 <= d) by (apply P; left; auto).
    assert (W1 := create_wf _ _ _ _ W D0 C).
    (* inserted at the end *)
    assert (C' := C). unfold create_file_stats in C'.
    destruct (lower_bound d (l_elems l)) as (a, b) eqn:E.
    destruct (lower_bound_app _ _ _ _ E) as (E1 & E2 & E3).
    destruct b as [|e b'].
    2:{ exfalso. specialize (E3 e b' eq_refl).
        assert (snd e < d).
        { apply L; [left; auto|]. unfold ids. rewrite E1, map_app.
          apply in_or_app; right; left; auto. }
        lia. }
    inversion C'; subst l1 o; clear C'. rewrite last_last in *. cbn [fst] in *.
    rewrite app_nil_r in E1.
    assert (I1 : ids (MkL (a ++ [(l_next l, d)]) (S (l_next l))) = ids l ++ [d]).
    { unfold ids; cbn [l_elems]. rewrite map_app, E1. reflexivity. }
    assert (L2 : forall d' e', In d' ds ->
      In e' (ids (MkL (a ++ [(l_next l, d)]) (S (l_next l)))) -> e' < d').
    { intros d' e' D' E'. rewrite I1 in E'. apply in_app_or in E'.
      destruct E' as [E'|[<-|[]]]; [|auto]. apply L; auto. right; auto. }
    destruct (IHds _ _ _ W1 IN2 ltac:(intros; apply P; right; auto) L2 C2)
      as (K1&K2&K3&K4&K5&K6&K7).
    cbn [l_next] in K7.
    csplit; auto.
    + rewrite K2, I1, <- app_assoc. reflexivity.
    + cbn; f_equal; auto.
    + intros o' d' [K|K]; [inversion K; subst|auto].
      apply K5. unfold device_of; cbn [l_elems]. apply in_or_app; right; left; auto.
    + intros o' d' K. apply K5. eapply create_keeps; eauto.
    + constructor; auto. intro X. apply K7 in X. lia.
    + intros o' [<-|X]; auto. apply K7 in X; lia.
Qed.

(** ** Snapshots *)

Definition fd_ranged (f : fdata) : Prop :=
  u32 (fd_rcount f) = fd_rcount f /\ u32 (fd_wcount f) = fd_wcount f /\
  u64 (fd_rbytes f) = fd_rbytes f /\ u64 (fd_wbytes f) = fd_wbytes f.

Definition devs (l : list fdata) : list Z := map fd_dev l.

Lemma merge_nil_r : forall comb l, merge_combine comb l [] = Some l.
Proof. intros comb l; destruct l; reflexivity. Qed.

Lemma merge_cons : forall comb a l1 b l2,
  merge_combine comb (a :: l1) (b :: l2) =
  if fd_dev a - fd_dev b <? 0 then
    match merge_combine comb l1 (b :: l2) with
    | Some r => Some (a :: r) | None => None end
  else if 0 <? fd_dev a - fd_dev b then
    match merge_combine comb (a :: l1) l2 with
    | Some r => Some (b :: r) | None => None end
  else match comb a b, merge_combine comb l1 l2 with
       | Some x, Some r => Some (x :: r) | _, _ => None end.
Proof. reflexivity. Qed.

Lemma sub_add : forall x y z,
  fd_ranged x -> fd_sub x y = Some z -> fd_add z y = Some x /\ fd_dev z = fd_dev x.
Proof.
  intros x y z (R1&R2&R3&R4) H. unfold fd_sub in H.
  destruct (Z.eqb_spec (fd_dev x) (fd_dev y)) as [E|E]; cbn [negb] in H; [|discriminate].
  inversion H; subst z; clear H. split; [|reflexivity].
  unfold fd_add; cbn [fd_dev fd_rcount fd_wcount fd_rbytes fd_wbytes fd_rtime fd_wtime].
  destruct (Z.eqb_spec (fd_dev x) (fd_dev y)); [|contradiction]. cbn [negb].
  rewrite !u32_add, !u64_add, !Z.sub_add, R1, R2, R3, R4.
  destruct x; reflexivity.
Qed.

Lemma fd_sub_some : forall x y, fd_dev x = fd_dev y ->
  exists z, fd_sub x y = Some z /\ fd_dev z = fd_dev x.
Proof.
  intros x y E. unfold fd_sub. rewrite E, Z.eqb_refl. cbn [negb].
  eexists; split; [reflexivity|]. reflexivity.
Qed.

Lemma find_skip : forall (l : list fdata) d,
  (forall f, In f l -> fd_dev f <> d) -> find (fun f => fd_dev f =? d) l = None.
Proof.
  intros l d H; induction l; auto. cbn.
  destruct (Z.eqb_spec (fd_dev a) d) as [E|E].
  - exfalso; apply (H a); auto. left; auto.
  - apply IHl. intros; apply H; right; auto.
Qed.

Lemma merge_sub : forall l1 l2,
  increasing (devs l1) -> increasing (devs l2) -> incl (devs l2) (devs l1) ->
  exists r, merge_combine fd_sub l1 l2 = Some r /\
    devs r = devs l1 /\
    (Forall fd_ranged l1 -> merge_combine fd_add r l2 = Some l1) /\
    forall d, find (fun f => fd_dev f =? d) r =
      match find (fun f => fd_dev f =? d) l1, find (fun f => fd_dev f =? d) l2 with
      | Some x, Some y => fd_sub x y
      | Some x, None => Some x
      | None, _ => None
      end.
Proof.
  induction l1 as [|a l1]; intros l2 I1 I2 IC.
  - destruct l2 as [|b l2].
    + exists []. csplit; auto.
    + exfalso. destruct (IC (fd_dev b)); left; auto.
  - cbn in I1. destruct I1 as (I1a & I1b).
    destruct l2 as [|b l2].
    + exists (a :: l1). rewrite !merge_nil_r. csplit; auto.
      intros d. cbn. destruct (fd_dev a =? d); auto.
      destruct (find _ l1); auto.
    + cbn in I2. destruct I2 as (I2a & I2b).
      rewrite merge_cons.
      assert (fd_dev a <= fd_dev b).
      { destruct (IC (fd_dev b)) as [E|E]; [left; auto|cbn in E; lia|].
        specialize (I1a _ E). lia. }
      destruct (Z.ltb_spec (fd_dev a - fd_dev b) 0).
      * destruct (IHl1 (b :: l2)) as (r & R1 & R2 & R3 & R4); auto.
        { cbn; auto. }
        { intros x X. destruct (IC x X) as [E|E]; auto. cbn in E, X.
          destruct X as [X|X]; [lia|]. specialize (I2a _ X). lia. }
        rewrite R1. exists (a :: r). csplit; auto.
        -- cbn; f_equal; auto.
        -- intros F. inversion F; subst. rewrite merge_cons.
           destruct (Z.ltb_spec (fd_dev a - fd_dev b) 0); [|lia].
           rewrite R3; auto.
        -- intros d. specialize (R4 d). cbn [find] in *.
           destruct (Z.eqb_spec (fd_dev a) d) as [E0|E0]; [|exact R4].
           destruct (Z.eqb_spec (fd_dev b) d) as [E|E]; [lia|].
           rewrite find_skip; auto. intros f Fi E2.
           assert (In d (devs l2)) by (rewrite <- E2; apply in_map; auto).
           specialize (I2a _ H1). lia.
      * assert (E : fd_dev a = fd_dev b) by lia.
        destruct (Z.ltb_spec 0 (fd_dev a - fd_dev b)); [lia|].
        destruct (fd_sub_some a b E) as (z & Z1 & Z2).
        destruct (IHl1 l2) as (r & R1 & R2 & R3 & R4); auto.
        { intros x X. assert (fd_dev b < x) by (apply I2a; auto).
          destruct (IC x) as [Q|Q]; auto.
          - right; auto.
          - cbn in Q; lia. }
        rewrite Z1, R1. exists (z :: r). csplit; auto.
        -- cbn; f_equal; auto.
        -- intros F. inversion F; subst. rewrite merge_cons.
           destruct (Z.ltb_spec (fd_dev z - fd_dev b) 0); [lia|].
           destruct (Z.ltb_spec 0 (fd_dev z - fd_dev b)); [lia|].
           rewrite R3; auto. rewrite (proj1 (sub_add a b z H4 Z1)). reflexivity.
        -- intros d. specialize (R4 d). cbn [find].
           rewrite Z2, E. destruct (Z.eqb_spec (fd_dev b) d); auto.
Qed.

Lemma snapshot_devs : forall c n s,
  devs (sd_files (snapshot c n s)) = map fs_dev (s_files s).
Proof. intros. unfold devs; cbn. rewrite map_map. apply map_ext; auto. Qed.

Lemma upd_devs : forall h i l, (forall f, fs_dev (h f) = fs_dev f) ->
  map fs_dev (upd i h l) = map fs_dev l.
Proof.
  intros h i l H; revert i; induction l; intros; destruct i; cbn; auto; f_equal; auto.
Qed.

Lemma run_devs : forall tr s, map fs_dev (s_files (sec_run tr s)) = map fs_dev (s_files s).
Proof.
  intros tr; induction tr; intros; cbn; auto. rewrite IHtr.
  destruct a; cbn; auto; apply upd_devs; reflexivity.
Qed.
