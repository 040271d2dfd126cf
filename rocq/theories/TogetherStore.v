(** What one step does to the requests and the blocks of the store. *)

From Coq Require Import ZArith List Bool Arith Lia Permutation.
From Verif Require Import AllocModel AllocMain ManagerModel ManagerSpec ManagerMain FileModel StoreModel StoreSpec
  StoreProofs StoreProofs2.
Import ListNotations.

Definition hold (s : store) : list bid := mc_held (st_client s).

Lemma new_facts : forall ba cfgs tr s tsize f off sizes s' e, sinv cfgs tr s ->
  allowed (length cfgs) s (SNew tsize f off sizes) -> store_step ba s (SNew tsize f off sizes) = Some (s', e) ->
  st_pending s' = st_pending s /\ exists got, e = EAlloc got /\ hold s' = hold s ++ got /\
  forall b, In b (hold s) -> ~ In b got.
Proof.
  intros ba cfgs tr s tsize f off sizes s' e V A E. cbn [allowed] in A. destruct V as [R _ _ _ _ _].
  assert (G : forall c', mclient_step (st_client s) (MNew tsize f off sizes) = StepOk c' \/
    mclient_step (st_client s) (MNew tsize f off sizes) = StepThrow c' ->
    exists got, mc_held c' = mc_held (st_client s) ++ got /\ forall b, In b (hold s) -> ~ In b got).
  { intros c' St. pose proof (reach_step _ _ _ _ R A St) as R'.
    destruct (new_grows _ _ _ _ _ _ _ (mreachable_inv _ _ _ R) A St) as ((got & Hg) & _).
    exists got. split; auto. pose proof (held_nodup _ _ R') as ND. rewrite Hg in ND.
    intros b Hb. eapply nodup_app_disjoint; eauto. }
  cbn [store_step] in E. unfold hold in *.
  destruct (mclient_step (st_client s) (MNew tsize f off sizes)) as [c'|c'|] eqn:St; [| |discriminate];
    (destruct (G c') as (got & Hg & N); [auto|]); inversion E; subst; cbn [st_pending st_client];
    (split; [reflexivity|]); exists got; rewrite Hg, skipn_app_exact; auto.
Qed.

Lemma delete_facts : forall ba cfgs tr s o i s' e, sinv cfgs tr s ->
  store_step ba s (SDelete o i) = Some (s', e) ->
  st_pending s' = st_pending s /\ exists b, nth_error (hold s) i = Some b /\ e = EDelete b /\
  forall x, In x (hold s) -> x <> b -> In x (hold s').
Proof.
  intros ba cfgs tr s o i s' e V E. destruct V as [R _ _ _ _ _]. cbn [store_step] in E. unfold hold.
  destruct (nth_error (mc_held (st_client s)) i) as [b|] eqn:Eb; [|discriminate].
  destruct (delete_keeps _ _ _ _ R Eb) as (c' & St & Hh & _). rewrite St in E.
  destruct (nth_error (st_disks s) (disk_of b)) as [k|]; [|discriminate].
  destruct (disk_discard ba o k (off_of b) (len_of b)); [|discriminate].
  inversion E; subst. cbn [st_pending st_client]. split; auto. exists b. split; auto. split; auto.
  intros x Hx N. rewrite Hh. eapply remove_nth_in; eauto.
Qed.

Lemma write_facts : forall ba s i d s' e, store_step ba s (SWrite i d) = Some (s', e) ->
  exists b, nth_error (hold s) i = Some b /\ e = EWrite b d /\ hold s' = hold s /\
  st_pending s' = st_pending s ++ [mk_rq b (Some d)].
Proof.
  intros ba s i d s' e E. cbn [store_step] in E. unfold hold.
  destruct (nth_error (mc_held (st_client s)) i) as [b|]; [|discriminate]. inversion E; subst. eauto.
Qed.

Lemma read_facts : forall ba s i s' e, store_step ba s (SRead i) = Some (s', e) ->
  exists b, nth_error (hold s) i = Some b /\ e = ERead b /\ hold s' = hold s /\
  st_pending s' = st_pending s ++ [mk_rq b None].
Proof.
  intros ba s i s' e E. cbn [store_step] in E. unfold hold.
  destruct (nth_error (mc_held (st_client s)) i) as [b|]; [|discriminate]. inversion E; subst. eauto.
Qed.

Lemma serve_facts : forall ba s a k s' e, store_step ba s (SServe a k) = Some (s', e) ->
  exists r, nth_error (st_pending s) k = Some r /\ hold s' = hold s /\
  st_pending s' = remove_nth k (st_pending s) /\
  match rq_data r with
  | Some _ => exists ok, e = EWritten (rq_bid r) ok
  | None => exists x, e = EReadDone (rq_bid r) x
  end.
Proof.
  intros ba s a k s' e E. cbn [store_step] in E. unfold hold.
  destruct (nth_error (st_pending s) k) as [r|]; [|discriminate]. exists r. split; auto.
  destruct (nth_error (st_disks s) (disk_of (rq_bid r))) as [dk|]; [|discriminate].
  destruct (rq_data r) as [data|].
  - destruct (disk_write _ _ _ _) as ([x| |] & dk'); [| |discriminate];
      inversion E; subst; cbn [st_client st_pending]; eauto.
  - destruct (disk_read _ _ _ _) as ([x| |] & dk'); [| |discriminate];
      inversion E; subst; cbn [st_client st_pending]; eauto.
Qed.

(** A write that is served was the only request for its block. *)
Lemma only_one : forall l k r, exclusive l -> nth_error l k = Some r -> rq_data r <> None ->
  forall x, In x (remove_nth k l) -> rq_bid x <> rq_bid r.
Proof.
  intros l k r X Er D x Hx Q. destruct (remove_nth_other _ _ _ Hx) as (j & N & Ej).
  apply D. apply (X k j r x); auto.
Qed.

Lemma in_remove : forall (l : list rq) k r x, nth_error l k = Some r -> rq_bid x <> rq_bid r ->
  (In x (remove_nth k l) <-> In x l).
Proof.
  intros l k r x Er N. split; [apply In_remove_nth|].
  intros H. eapply remove_nth_in; eauto. congruence.
Qed.

Lemma in_snoc : forall (l : list rq) r x, rq_bid x <> rq_bid r -> (In x (l ++ [r]) <-> In x l).
Proof.
  intros l r x N. rewrite in_app_iff. cbn. split; [|auto]. intros [H|[H|[]]]; auto. congruence.
Qed.

Lemma in_removed : forall (l : list rq) k x, In x (remove_nth k l) -> In x l.
Proof. intros l k x. apply In_remove_nth. Qed.
