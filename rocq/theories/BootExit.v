(* What becomes of the files (C105, C106). *)
From Coq Require Import String Ascii List Arith Bool ZArith Lia.
From Verif Require Import ConfigModel BootModel BootSpec BootProofs BootRetry BootProps.
Import ListNotations.
Local Open Scope list_scope.

Section Exit.
Variable expand : str -> str.
Variable parse_size : str -> option Z.
Variable pid : Z.
Variable getenv : str -> option str.
Variable conf_files : str -> option str.
Variable device : str -> option Z.
Notation start := (start expand parse_size pid getenv conf_files device).
Notation initialised := (check_initialized expand parse_size pid getenv conf_files).
Notation run := (run expand parse_size pid getenv conf_files device).
Notation do := (do expand parse_size pid getenv conf_files device).
Notation finish := (finish device).
Notation go := (go device).
Notation works_on := (works_on device).
Notation concerns := (concerns device).
Notation cls := (cls device).

Lemma cls_works : forall d p, ~ works_on d p -> cls d p = 0.
Proof.
  intros d p N. unfold BootRetry.cls. destruct (isufs d) eqn:U.
  - destruct (seq (path d) p) eqn:E; [|reflexivity]. apply seq_eq in E. subst p.
    destruct (device (path d)) eqn:D; [reflexivity|]. exfalso. apply N. left.
    rewrite on_file_iff. auto.
  - destruct (isperblock d) eqn:P; [|reflexivity].
    destruct (seq (lock_name (path d)) p) eqn:E; [|reflexivity]. apply seq_eq in E. subst p.
    exfalso. apply N. right. rewrite per_block_iff. auto.
Qed.

Lemma alike_works : forall d d' p, alike device d d' -> works_on d p <-> works_on d' p.
Proof.
  intros d d' p (P & I & _). unfold BootSpec.works_on, on_file, checked, per_block. rewrite P, I. reflexivity.
Qed.

Lemma effs_nth : forall ds i d f p, nth_error ds i = Some d ->
  (forall j x, j <> i -> nth_error ds j = Some x -> cls x p = 0) ->
  exists g, g p = f p /\ effs device ds f p = eff device d g p.
Proof.
  induction ds as [|x ds IH]; intros i d f p N A; [destruct i; discriminate|].
  destruct i as [|i]; cbn in N.
  - injection N as ->. exists f. split; [reflexivity|]. cbn.
    pose proof (effs_top device ds p) as T.
    assert (Z : top device ds p = 0).
    { assert (B : forall l, (forall j x, nth_error l j = Some x -> cls x p = 0) -> top device l p = 0).
      { induction l as [|y l IHl]; intros H; [reflexivity|]. cbn [top fold_right].
        fold (top device l p). rewrite (H 0 y eq_refl), IHl; [reflexivity|].
        intros j z J. exact (H (S j) z J). }
      apply B. intros j y J. apply (A (S j)); [lia|assumption]. }
    rewrite Z in T. apply T.
  - destruct (IH i d (eff device x f) p N) as (g & G1 & G2).
    + intros j y J Y. apply (A (S j)); [lia|assumption].
    + exists g. split; [|exact G2]. rewrite G1. pose proof (eff_cls device x p) as C.
      rewrite (A 0 x) in C; [apply C|lia|reflexivity].
Qed.

(* What is known of an open file. *)
Definition sound (o : opened) : Prop :=
  o_name o = name_of device (o_disk o) /\ (size (o_disk o) <= o_bytes o)%Z
  /\ (isdev device (o_disk o) = true -> delete_on_exit (o_disk o) = false).

Definition inv (s : state) : Prop :=
  match s_manager s with
  | None => True
  | Some l => (exists rest, disks (s_config s) = map o_disk l ++ rest) /\ Forall sound l
  end.

Lemma start_some : forall e s l, s_manager s = Some l -> snd (start e s) = s.
Proof. intros e s l M. rewrite (C105_again _ _ _ _ _ _ e s l M). reflexivity. Qed.

Lemma start_bad_config : forall e s c, s_manager s = None -> initialised (s_config s) = (false, c) ->
  start e s = (false, State c (s_files s) None (s_allocators s) (s_descriptors s)).
Proof. intros e s c M I. unfold BootModel.start. rewrite M, I. reflexivity. Qed.

Lemma initialised_disks : forall c b c', initialised c = (b, c') -> disks c = [] \/ disks c' = disks c.
Proof.
  intros c b c' I. unfold check_initialized, initialize in I.
  destruct (is_initialized c); [injection I as _ <-; auto|].
  cbn [disks] in I. destruct (disks c) as [|d ds] eqn:D; [auto|].
  cbn in I. injection I as _ <-. right. reflexivity.
Qed.

Lemma go_ready : forall ds i e m f os ds1 m1 f1, go i e ds m f = (None, os, ds1, m1, f1) ->
  Forall sound os.
Proof.
  induction ds as [|d ds IH]; intros i e m f os ds1 m1 f1 G; cbn [BootProofs.go] in G.
  - injection G as <- _ _ _. constructor.
  - destruct (openbad device (e i) d); [discriminate|]. destruct (latebad device (e i) d); [discriminate|].
    destruct (go (S i) e ds _ (eff device d f)) as [[[[r os'] ds'] m''] f''] eqn:GG.
    injection G as -> <- <- <- <-. constructor; [|eapply IH; exact GG].
    split; [|split]; cbn [ready_file o_name o_disk o_bytes].
    + destruct (alike_same _ _ _ (finished_alike device i d (fst (take_id m (device_id d))))) as (_ & _ & N & _).
      congruence.
    + rewrite finished_size. lia.
    + rewrite (isdev_alike device d) by (apply finished_path || apply finished_impl).
      unfold isdev, finished. destruct (device (path d)); [|rewrite andb_false_r; discriminate].
      destruct (ischecked d); [reflexivity|discriminate].
Qed.

Lemma inv_start : forall e s, inv s -> inv (snd (start e s)).
Proof.
  intros e s V. destruct (s_manager s) as [l|] eqn:M; [rewrite (start_some e s l M); assumption|].
  destruct (initialised (s_config s)) as [[] c] eqn:I.
  - rewrite (start_go _ _ _ _ _ _ e s c M I).
    destruct (go 0 e (disks c) (max_dev c) (s_files s)) as [[[[r os] ds] m] f] eqn:GG.
    destruct r as [[n b]|]; cbn [snd]; [exact Logic.I|].
    destruct (go_ok _ _ _ _ _ _ _ _ _ _ GG) as (_ & -> & _). cbn.
    split; [exists []; rewrite app_nil_r; reflexivity|]. eapply go_ready. exact GG.
  - rewrite (start_bad_config e s c M I). exact Logic.I.
Qed.

Lemma split_nth : forall (l : list opened) i o, nth_error l i = Some o ->
  l = firstn i l ++ o :: skipn (S i) l /\ length (firstn i l) = i.
Proof.
  induction l as [|x l IH]; intros [|i] o N; try discriminate; cbn in N.
  - injection N as ->. split; reflexivity.
  - destruct (IH i o N) as [E F]. split; [cbn; f_equal; exact E|cbn; f_equal; exact F].
Qed.

Lemma inv_do : forall o s, inv s -> inv (do o s).
Proof.
  intros o s V. destruct o as [d|e|i n|i off n|i off]; cbn [BootModel.do].
  - unfold inv in *. cbn [s_manager s_config]. destruct (s_manager s) as [l|]; [|exact Logic.I].
    destruct V as [[rest R] F]. split; [|assumption]. exists (rest ++ [d]). cbn.
    rewrite R, app_assoc. reflexivity.
  - apply inv_start. assumption.
  - unfold grow. destruct (s_manager s) as [l|] eqn:M; [|assumption].
    destruct (nth_error l i) as [o|] eqn:N; [|assumption].
    destruct (n =? 0)%N; [assumption|].
    unfold inv in *. rewrite M in V. cbn [s_manager s_config].
    destruct V as [[rest R] F]. destruct (split_nth l i o N) as [E _].
    rewrite E, map_app in R. rewrite E in F. apply Forall_app in F. destruct F as [F1 F2].
    inversion F2 as [|? ? F3 F4]; subst. split.
    + exists rest. rewrite R, map_app. reflexivity.
    + apply Forall_app. split; [assumption|]. constructor; [|assumption].
      destruct F3 as (F5 & F6 & F7). split; [|split]; cbn [o_name o_disk o_bytes]; [assumption|lia|assumption].
  - unfold serve. destruct (s_manager s) as [l|] eqn:M; [|assumption].
    destruct (nth_error l i) as [o|]; [|assumption].
    destruct (impl_of (o_disk o)); try assumption.
    unfold inv in *. cbn. rewrite M in *. assumption.
  - unfold discard. destruct (s_manager s) as [l|] eqn:M; [|assumption].
    destruct (nth_error l i) as [o|]; [|assumption].
    destruct (impl_of (o_disk o)); try assumption.
    unfold inv in *. cbn. rewrite M in *. assumption.
Qed.

Lemma inv_run : forall ops s, inv s -> inv (run ops s).
Proof. induction ops as [|o ops IH]; intros s V; [assumption|]. cbn. apply IH, inv_do, V. Qed.

(* The disks of the configuration keep their names. *)
Lemma go_disks : forall ds i e m f r os ds1 m1 f1, go i e ds m f = (r, os, ds1, m1, f1) ->
  Forall2 (alike device) ds ds1.
Proof.
  assert (AR : forall ds, Forall2 (alike device) ds ds).
  { induction ds as [|x l0 IH]; constructor; auto. unfold BootProofs.alike. auto 10. }
  induction ds as [|d ds IH]; intros i e m f r os ds1 m1 f1 G; cbn [BootProofs.go] in G.
  - injection G as _ _ <- _ _. constructor.
  - destruct (openbad device (e i) d).
    { injection G as _ _ <- _ _. constructor; [apply partial_alike|apply AR]. }
    destruct (latebad device (e i) d).
    { injection G as _ _ <- _ _. constructor; [apply finished_alike|apply AR]. }
    destruct (go (S i) e ds _ (eff device d f)) as [[[[r' os'] ds'] m''] f''] eqn:GG.
    injection G as _ _ <- _ _. constructor; [apply finished_alike|]. eapply IH. exact GG.
Qed.

Definition somebody (s : state) (p : str) : Prop := exists d, In d (disks (s_config s)) /\ works_on d p.

Lemma Forall2_somebody : forall ds ds' p, Forall2 (alike device) ds ds' ->
  (exists d, In d ds /\ works_on d p) <-> (exists d, In d ds' /\ works_on d p).
Proof.
  induction 1 as [|d d' ds ds' A R IH].
  - reflexivity.
  - split.
    + intros (x & [<-|X] & W).
      * exists d'. split; [left; reflexivity|]. apply (alike_works _ _ p A). assumption.
      * destruct IH as [IH _]. destruct IH as (y & Y & W'); [eauto|]. exists y. split; [right|]; assumption.
    + intros (x & [<-|X] & W).
      * exists d. split; [left; reflexivity|]. apply (alike_works _ _ p A). assumption.
      * destruct IH as [_ IH]. destruct IH as (y & Y & W'); [eauto|]. exists y. split; [right|]; assumption.
Qed.

Lemma somebody_do : forall o s p, somebody s p -> somebody (do o s) p.
Proof.
  intros o s p B. destruct o as [d|e|i n|i off n|i off]; cbn [BootModel.do].
  - destruct B as (x & X & W). exists x. split; [|assumption]. cbn. apply in_or_app. auto.
  - destruct (s_manager s) as [l|] eqn:M; [rewrite (start_some e s l M); assumption|].
    destruct (initialised (s_config s)) as [b c] eqn:I.
    destruct (initialised_disks _ _ _ I) as [D|D].
    { destruct B as (x & X & W). rewrite D in X. destruct X. }
    destruct b.
    + rewrite (start_go _ _ _ _ _ _ e s c M I).
      destruct (go 0 e (disks c) (max_dev c) (s_files s)) as [[[[r os] ds] m] f] eqn:GG.
      pose proof (go_disks _ _ _ _ _ _ _ _ _ _ GG) as AL.
      assert (Q : exists d, In d ds /\ works_on d p).
      { apply (Forall2_somebody _ _ p AL). unfold somebody in B. rewrite D. exact B. }
      destruct r as [[n b]|]; exact Q.
    + rewrite (start_bad_config e s c M I). unfold somebody in *. cbn. rewrite D. exact B.
  - unfold grow. destruct (s_manager s) as [l|]; [|assumption]. destruct (nth_error l i); [|assumption].
    destruct (n =? 0)%N; assumption.
  - unfold serve. destruct (s_manager s) as [l|]; [|assumption]. destruct (nth_error l i) as [o|]; [|assumption].
    destruct (impl_of (o_disk o)); assumption.
  - unfold discard. destruct (s_manager s) as [l|]; [|assumption]. destruct (nth_error l i) as [o|]; [|assumption].
    destruct (impl_of (o_disk o)); assumption.
Qed.

Lemma somebody_run : forall ops s p, somebody s p -> somebody (run ops s) p.
Proof. induction ops as [|o ops IH]; intros s p B; [assumption|]. cbn. apply IH, somebody_do, B. Qed.

Lemma opened_in : forall s l i o, inv s -> s_manager s = Some l -> nth_error l i = Some o ->
  In (o_disk o) (disks (s_config s)) /\ sound o /\ nth_error (disks (s_config s)) i = Some (o_disk o).
Proof.
  intros s l i o V M N. unfold inv in V. rewrite M in V. destruct V as [[rest R] F].
  assert (X : nth_error (disks (s_config s)) i = Some (o_disk o)).
  { rewrite R, nth_error_app1; [apply map_nth_error; assumption|].
    rewrite map_length. apply nth_error_Some. congruence. }
  split; [eapply nth_error_In; exact X|]. split; [|exact X].
  eapply (proj1 (Forall_forall _ _) F). eapply nth_error_In. exact N.
Qed.

Lemma set_size_untouched : forall o z f p, sound o -> ~ works_on (o_disk o) p ->
  set_size device (o_disk o) (o_name o) z f p = f p.
Proof.
  intros o z f p [N _] W. destruct (isufs (o_disk o)) eqn:U.
  - rewrite N. unfold name_of. rewrite U. destruct (unlinked device (o_disk o)).
    + apply set_size_other. congruence.
    + destruct (list_eq_dec ascii_dec (path (o_disk o)) p) as [<-|E].
      * unfold set_size. destruct (device (path (o_disk o))) eqn:D; [destruct (impl_of _); reflexivity|].
        exfalso. apply W. left. rewrite on_file_iff. auto.
      * apply set_size_other. congruence.
  - apply set_size_other. congruence.
Qed.

(* One step does not change names that are nobody's. *)
Lemma untouched_do : forall o s p, inv s -> ~ somebody (do o s) p -> s_files (do o s) p = s_files s p.
Proof.
  intros o s p V NB.
  assert (NS : ~ somebody s p) by (intros B; apply NB, somebody_do, B).
  destruct o as [d|e|i n|i off n|i off]; cbn [BootModel.do] in *.
  - reflexivity.
  - destruct (s_manager s) as [l|] eqn:M; [rewrite (start_some e s l M); reflexivity|].
    destruct (initialised (s_config s)) as [b c] eqn:I. destruct b.
    + rewrite (start_go _ _ _ _ _ _ e s c M I) in *.
      destruct (go 0 e (disks c) (max_dev c) (s_files s)) as [[[[r os] ds] m] f] eqn:GG.
      pose proof (go_disks _ _ _ _ _ _ _ _ _ _ GG) as AL.
      assert (T : top device (disks c) p = 0).
      { assert (Q : ~ exists d, In d (disks c) /\ works_on d p).
        { intros Q. apply NB. apply (Forall2_somebody _ _ p AL) in Q.
          destruct r as [[n b]|]; exact Q. }
        clear - Q. induction (disks c) as [|d ds IH]; [reflexivity|].
        cbn [top fold_right]. fold (top device ds p).
        rewrite (cls_works d p), IH; [reflexivity| |].
        - intros (x & X & W). apply Q. exists x. split; [right|]; assumption.
        - intros W. apply Q. exists d. split; [left; reflexivity|assumption]. }
      destruct r as [[n b]|]; cbn [snd s_files].
      * destruct (go_failed_files _ _ _ _ _ _ _ _ _ _ _ _ p GG) as (R0 & _ & RL).
        rewrite close_other by (apply RL; lia). apply R0. assumption.
      * rewrite (go_effs _ _ _ _ _ _ _ _ _ _ GG). pose proof (effs_top device (disks c) p) as E.
        rewrite T in E. apply E.
    + rewrite (start_bad_config e s c M I). reflexivity.
  - unfold grow. destruct (s_manager s) as [l|] eqn:M; [|reflexivity].
    destruct (nth_error l i) as [o|] eqn:N; [|reflexivity].
    destruct (n =? 0)%N; [reflexivity|]. cbn [s_files].
    destruct (opened_in s l i o V M N) as (O1 & O2 & _).
    apply set_size_untouched; [assumption|]. intros W. apply NS. exists (o_disk o). auto.
  - unfold serve. destruct (s_manager s) as [l|] eqn:M; [|reflexivity].
    destruct (nth_error l i) as [o|] eqn:N; [|reflexivity].
    destruct (opened_in s l i o V M N) as (O1 & O2 & _).
    destruct (impl_of (o_disk o)) eqn:K; try reflexivity. cbn [s_files].
    apply put_other. intros E. apply NS. exists (o_disk o). split; [assumption|]. right.
    split; [|right; exists off; congruence]. apply per_block_iff. unfold isperblock. rewrite K. reflexivity.
  - unfold discard. destruct (s_manager s) as [l|] eqn:M; [|reflexivity].
    destruct (nth_error l i) as [o|] eqn:N; [|reflexivity].
    destruct (opened_in s l i o V M N) as (O1 & O2 & _).
    destruct (impl_of (o_disk o)) eqn:K; try reflexivity. cbn [s_files].
    apply put_other. intros E. apply NS. exists (o_disk o). split; [assumption|]. right.
    split; [|right; exists off; congruence]. apply per_block_iff. unfold isperblock. rewrite K. reflexivity.
Qed.

Lemma untouched_run : forall ops s p, inv s -> ~ somebody (run ops s) p -> s_files (run ops s) p = s_files s p.
Proof.
  induction ops as [|o ops IH]; intros s p V NB; [reflexivity|]. cbn in *.
  rewrite IH; [|apply inv_do; assumption|assumption].
  apply untouched_do; [assumption|]. intros B. apply NB, somebody_run, B.
Qed.

Lemma end_disk_untouched : forall o f p, sound o -> ~ works_on (o_disk o) p -> end_disk device o f p = f p.
Proof.
  intros o f p SO W. unfold end_disk, close_file.
  assert (X : forall g, (if (size (o_disk o) <? o_bytes o)%Z
                 then set_size device (o_disk o) (o_name o) (size (o_disk o)) g else g) p = g p).
  { intros g. destruct (_ <? _)%Z; [apply set_size_untouched; assumption|reflexivity]. }
  destruct (impl_of (o_disk o)) eqn:K; try apply X.
  rewrite put_other; [apply X|]. intros E. apply W. right.
  split; [|left; congruence]. apply per_block_iff. unfold isperblock. rewrite K. reflexivity.
Qed.

Lemma end_disks_untouched : forall l f p, Forall sound l -> (forall o, In o l -> ~ works_on (o_disk o) p) ->
  end_disks device l f p = f p.
Proof.
  induction l as [|o l IH]; intros f p F W; [reflexivity|]. inversion F; subst. cbn.
  rewrite IH; [|assumption|intros; apply W; right; assumption].
  apply end_disk_untouched; [assumption|]. apply W. left. reflexivity.
Qed.

Lemma remove_untouched : forall l f p, (forall d, In d l -> ~ (delete_on_exit d = true /\ p = path d)) ->
  remove_disks l f p = f p.
Proof.
  induction l as [|d l IH]; intros f p W; [reflexivity|]. cbn.
  rewrite IH by (intros; apply W; right; assumption).
  destruct (delete_on_exit d) eqn:D; [|reflexivity]. apply put_other.
  intros E. apply (W d); [left; reflexivity|]. auto.
Qed.

Lemma remove_none : forall l f p, f p = None -> remove_disks l f p = None.
Proof.
  induction l as [|d l IH]; intros f p N; [assumption|]. cbn. apply IH.
  destruct (delete_on_exit d); [|assumption]. unfold put. destruct (seq (path d) p); [reflexivity|assumption].
Qed.

Lemma removed : forall l f d, In d l -> delete_on_exit d = true -> remove_disks l f (path d) = None.
Proof.
  induction l as [|x l IH]; intros f d I D; [destruct I|]. destruct I as [<-|I]; cbn.
  - rewrite D. apply remove_none. apply put_same.
  - apply IH; assumption.
Qed.

(* The file of disk i, if nobody else works on it. *)
Definition private (s : state) (i : nat) (p : str) : Prop :=
  forall j d, j <> i -> nth_error (disks (s_config s)) j = Some d -> ~ works_on d p.

Definition is_size (s : state) : Prop :=
  forall l i o, s_manager s = Some l -> nth_error l i = Some o ->
  on_file (o_disk o) -> device (path (o_disk o)) = None -> private s i (path (o_disk o)) ->
  (unlink_on_open (o_disk o) = true -> s_files s (path (o_disk o)) = None)
  /\ (unlink_on_open (o_disk o) = false -> size (o_disk o) <> 0%Z -> (0 <= size (o_disk o))%Z ->
      s_files s (path (o_disk o)) = Some (o_bytes o)).

Lemma nth_error_replace : forall (l : list opened) i o x j, nth_error l i = Some o ->
  nth_error (firstn i l ++ x :: skipn (S i) l) j = if j =? i then Some x else nth_error l j.
Proof.
  induction l as [|y l IH]; intros [|i] o x [|j] N; try discriminate; cbn in *; try reflexivity.
  apply (IH i o x j N).
Qed.

Lemma ufs_not_perblock : forall d, on_file d -> ~ per_block d.
Proof.
  intros d O P. rewrite on_file_iff in O. rewrite per_block_iff in P.
  unfold isufs, isperblock in *. destruct (impl_of d); discriminate.
Qed.

Lemma eff_size : forall d f, on_file d -> device (path d) = None ->
  (unlink_on_open d = true -> eff device d f (path d) = None)
  /\ (unlink_on_open d = false -> size d <> 0%Z -> eff device d f (path d) = Some (size d)).
Proof.
  intros d f O D. rewrite on_file_iff in O. unfold eff, opened_files, name_of. rewrite O, (unlinked_file _ _ O D).
  assert (FS : fsize device d = size d).
  { unfold fsize, isdev. rewrite D, andb_false_r. reflexivity. }
  rewrite FS. split; intros U.
  - rewrite U. destruct (size d =? 0)%Z; [apply put_same|].
    unfold set_size. unfold isufs in O. destruct (impl_of d); try discriminate; apply put_same.
  - intros NZ. rewrite U. apply Z.eqb_neq in NZ. rewrite NZ. unfold set_size. rewrite D.
    unfold isufs in O. destruct (impl_of d); try discriminate; apply put_same.
Qed.

Lemma size_start : forall e s, inv s -> is_size s -> is_size (snd (start e s)).
Proof.
  intros e s V H. destruct (s_manager s) as [l0|] eqn:M; [rewrite (start_some e s l0 M); assumption|].
  destruct (initialised (s_config s)) as [b c] eqn:I. destruct b.
  2: { rewrite (start_bad_config e s c M I). intros l i o X. discriminate. }
  rewrite (start_go _ _ _ _ _ _ e s c M I).
  destruct (go 0 e (disks c) (max_dev c) (s_files s)) as [[[[r os] ds] m] f] eqn:GG.
  destruct r as [[n b]|]; cbn [snd]; [intros l i o X; discriminate|].
  intros l i o X N O D P. cbn [s_manager] in X. injection X as <-.
  destruct (go_ok _ _ _ _ _ _ _ _ _ _ GG) as (LN & DS & C). cbn [plus] in C.
  unfold private in P. cbn [s_config disks] in P.
  assert (ND : exists d, nth_error (disks c) i = Some d).
  { destruct (nth_error (disks c) i) eqn:E; [eauto|]. apply nth_error_None in E.
    assert (nth_error os i = None) by (apply nth_error_None; lia). congruence. }
  destruct ND as (d & ND). destruct (C _ _ ND) as (_ & id & N' & _).
  assert (o = ready_file device i d id) by congruence. subst o. cbn [ready_file o_disk o_bytes] in *.
  rewrite finished_path in *. rewrite finished_size.
  pose proof (finished_alike device i d id) as A. destruct A as (A1 & A2 & A3).
  assert (O' : on_file d).
  { unfold on_file, checked in *. rewrite A2 in O. exact O. }
  assert (DV : isdev device d = false) by (unfold isdev; rewrite D; apply andb_false_r).
  destruct A3 as [A3|(A3 & A4 & A5)]; [congruence|].
  assert (FS : fsize device d = size d) by (unfold fsize; rewrite DV; reflexivity).
  rewrite A5, FS. cbn [s_files]. rewrite (go_effs _ _ _ _ _ _ _ _ _ _ GG).
  destruct (effs_nth (disks c) i d (s_files s) (path d) ND) as (g & G1 & G2).
  { intros j x J Y. apply cls_works. intros W.
    destruct (C _ _ Y) as (_ & idj & Nj & _).
    apply (P j (finished device j x idj) J).
    - rewrite DS. rewrite (map_nth_error o_disk _ _ Nj). reflexivity.
    - apply (alike_works _ _ _ (finished_alike device j x idj)). assumption. }
  rewrite G2. destruct (eff_size d g O' D) as [E1 E2]. split; auto.
Qed.

Lemma size_do : forall o s, inv s -> is_size s -> is_size (do o s).
Proof.
  intros o s V H. destruct o as [d|e|i n|i off n|i off]; cbn [BootModel.do].
  - intros l i o M N O D P. cbn [s_manager s_files] in *. apply (H l i o M N O D).
    intros j x J X. apply (P j x J). cbn. rewrite nth_error_app1; [assumption|].
    apply nth_error_Some. congruence.
  - apply size_start; assumption.
  - unfold grow. destruct (s_manager s) as [l|] eqn:M; [|assumption].
    destruct (nth_error l i) as [o|] eqn:N; [|assumption].
    destruct (n =? 0)%N eqn:NZ; [assumption|]. apply N.eqb_neq in NZ.
    destruct (opened_in s l i o V M N) as (O1 & (SN & SB & SD) & O3).
    intros l' j x M' X O D P. cbn [s_manager] in M'. injection M' as <-. cbn [s_files].
    change (private s j (path (o_disk x))) in P.
    change (nth_error (firstn i l ++ Opened (o_disk o) (o_name o) (o_bytes o + Z.of_N n) :: skipn (S i) l) j = Some x) in X.
    rewrite (nth_error_replace l i o _ j N) in X.
    destruct (Nat.eqb_spec j i) as [->|NE].
    + injection X as <-. cbn [o_disk o_bytes] in *.
      destruct (H l i o M N O D P) as [H1 H2].
      pose proof O as O'. rewrite on_file_iff in O'.
      assert (UL : unlinked device (o_disk o) = unlink_on_open (o_disk o)) by (apply unlinked_file; assumption).
      rewrite SN. unfold name_of. rewrite O', UL. split; intros U.
      * rewrite U. rewrite set_size_other by congruence. auto.
      * intros _ _. rewrite U. unfold set_size. rewrite D. unfold isufs in O'.
        destruct (impl_of (o_disk o)); try discriminate; apply put_same.
    + rewrite set_size_untouched; [exact (H l j x M X O D P)|split; [assumption|split; assumption]|].
      apply (P i); [congruence|assumption].
  - unfold serve. destruct (s_manager s) as [l|] eqn:M; [|assumption].
    destruct (nth_error l i) as [o|] eqn:N; [|assumption].
    destruct (impl_of (o_disk o)) eqn:K; try assumption.
    destruct (opened_in s l i o V M N) as (O1 & SO & O3).
    assert (PB : per_block (o_disk o)) by (apply per_block_iff; unfold isperblock; rewrite K; reflexivity).
    intros l' j x M' X O D P. cbn [s_manager] in M'. injection M' as <-. cbn [s_files].
    change (private s j (path (o_disk x))) in P.
    rewrite put_other; [exact (H l j x M X O D P)|].
    intros E. assert (j <> i).
    { intros ->. assert (x = o) by congruence. subst x. exact (ufs_not_perblock _ O PB). }
    apply (P i (o_disk o)); [congruence|assumption|]. right. split; [assumption|]. right. exists off. congruence.
  - unfold discard. destruct (s_manager s) as [l|] eqn:M; [|assumption].
    destruct (nth_error l i) as [o|] eqn:N; [|assumption].
    destruct (impl_of (o_disk o)) eqn:K; try assumption.
    destruct (opened_in s l i o V M N) as (O1 & SO & O3).
    assert (PB : per_block (o_disk o)) by (apply per_block_iff; unfold isperblock; rewrite K; reflexivity).
    intros l' j x M' X O D P. cbn [s_manager] in M'. injection M' as <-. cbn [s_files].
    change (private s j (path (o_disk x))) in P.
    rewrite put_other; [exact (H l j x M X O D P)|].
    intros E. assert (j <> i).
    { intros ->. assert (x = o) by congruence. subst x. exact (ufs_not_perblock _ O PB). }
    apply (P i (o_disk o)); [congruence|assumption|]. right. split; [assumption|]. right. exists off. congruence.
Qed.

Lemma size_run : forall ops s, inv s -> is_size s -> is_size (run ops s).
Proof.
  induction ops as [|o ops IH]; intros s V H; [assumption|]. cbn.
  apply IH; [apply inv_do; assumption|apply size_do; assumption].
Qed.

(* The end of one disk among the others. *)
Lemma end_disks_app : forall a b f, end_disks device (a ++ b) f = end_disks device b (end_disks device a f).
Proof. induction a as [|o a IH]; intros b f; [reflexivity|]. cbn. apply IH. Qed.

Lemma end_nth : forall l i o f p, Forall sound l -> nth_error l i = Some o ->
  (forall j x, j <> i -> nth_error l j = Some x -> ~ works_on (o_disk x) p) ->
  exists g, g p = f p /\ end_disks device (rev l) f p = end_disk device o g p.
Proof.
  intros l i o f p F N A. destruct (split_nth l i o N) as [E LN].
  assert (F' : Forall sound (firstn i l) /\ Forall sound (skipn (S i) l)).
  { rewrite E in F. apply Forall_app in F. destruct F as [F1 F2]. inversion F2. auto. }
  destruct F' as [F1 F2].
  assert (A1 : forall x, In x (firstn i l) -> ~ works_on (o_disk x) p).
  { intros x X. apply In_nth_error in X. destruct X as [j X].
    assert (J : j < i) by (rewrite <- LN; apply nth_error_Some; congruence).
    apply (A j); [lia|]. rewrite E, nth_error_app1 by lia. assumption. }
  assert (A2 : forall x, In x (skipn (S i) l) -> ~ works_on (o_disk x) p).
  { intros x X. apply In_nth_error in X. destruct X as [j X].
    apply (A (i + S j)); [lia|]. rewrite E, nth_error_app2 by lia. rewrite LN.
    replace (i + S j - i) with (S j) by lia. assumption. }
  exists (end_disks device (rev (skipn (S i) l)) f). split.
  - apply end_disks_untouched; [apply Forall_rev; assumption|].
    intros x X. apply A2. apply in_rev. assumption.
  - rewrite E at 1. rewrite rev_app_distr. cbn [rev]. rewrite <- app_assoc, end_disks_app. cbn [app end_disks].
    apply end_disks_untouched; [apply Forall_rev; assumption|].
    intros x X. apply A1. apply in_rev. assumption.
Qed.
End Exit.
