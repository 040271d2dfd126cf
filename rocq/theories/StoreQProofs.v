(** The block store on top of the queues does what StoreModel says. *)

From Coq Require Import ZArith List Bool Arith Lia Permutation.
From Verif Require Import WriterProofs.
From Verif Require Import AllocModel ManagerModel ManagerSpec FileModel StoreModel StoreSpec StoreProofs2 StoreProps StoreQModel StoreQSpec.
From Verif Require QueueModel QueueSpec QueueProofs QueueLife QueueTrace QueueProps QueueProps2 XferModel XferProofs XferProps.
Import ListNotations.

Notation log q := (QueueModel.st_log q).
Notation loc := QueueProofs.loc.
Notation flying := XferProofs.flying.
Notation qreachable := QueueModel.qreachable.

Lemma put_same : forall A d (x : A) f, put d x f d = x.
Proof. intros. unfold put. rewrite Nat.eqb_refl. auto. Qed.
Lemma put_other : forall A d (x : A) f e, e <> d -> put d x f e = f e.
Proof. intros A d x f e H. unfold put. apply Nat.eqb_neq in H. rewrite H. auto. Qed.

(** ** Steps of the store *)

Lemma post_step : forall ba c d p o s1 e x, store_step ba (mk_store c d p) o = Some (s1, e) -> request_of e = Some x ->
  s1 = mk_store c d (p ++ [x]) /\
  (forall p', store_step ba (mk_store c d p') o = Some (mk_store c d (p' ++ [x]), e)) /\
  In (rq_bid x) (mc_held c) /\
  forall n p', allowed n (mk_store c d p') o <->
    match e with
    | EWrite b dd => exists i, o = SWrite i dd /\ nth_error (mc_held c) i = Some b /\
        Z.of_nat (length dd) = b_size b /\ forall r, In r p' -> rq_bid r <> b
    | ERead b => exists i, o = SRead i /\ nth_error (mc_held c) i = Some b /\
        forall r, In r p' -> rq_data r <> None -> rq_bid r <> b
    | _ => False
    end.
Proof.
  intros ba c d p o s1 e x H E. destruct o as [tsize f off sizes|os i|i data|i|a k]; cbn [store_step st_client st_disks st_pending] in H.
  - destruct (mclient_step c _) as [c'|c'|]; inversion H; subst; discriminate.
  - destruct (nth_error (mc_held c) i) as [b|]; [|discriminate]. destruct (mclient_step c _) as [c'|c'|]; try discriminate.
    destruct (nth_error d (disk_of b)) as [k|]; [|discriminate]. destruct (disk_discard _ _ _ _ _) as [k'|]; inversion H; subst. discriminate.
  - destruct (nth_error (mc_held c) i) as [b|] eqn:Eb; inversion H; subst. cbn in E. inversion E; subst. csplit; auto.
    + intros p'. cbn. rewrite Eb. auto.
    + eapply nth_error_In; eauto.
    + intros n p'. cbn. split.
      * intros (b' & A & B & C). rewrite Eb in A. inversion A; subst. exists i. auto.
      * intros (i' & A & B & C & D). inversion A; subst. exists b. auto.
  - destruct (nth_error (mc_held c) i) as [b|] eqn:Eb; inversion H; subst. cbn in E. inversion E; subst. csplit; auto.
    + intros p'. cbn. rewrite Eb. auto.
    + eapply nth_error_In; eauto.
    + intros n p'. cbn. split.
      * intros (b' & A & B). rewrite Eb in A. inversion A; subst. exists i. auto.
      * intros (i' & A & B & C). inversion A; subst. exists b. auto.
  - destruct (nth_error p k) as [r|]; [|discriminate]. destruct (nth_error d _) as [dk|]; [|discriminate].
    destruct (rq_data r).
    + destruct (disk_write _ _ _ _) as ([y| |] & dk'); inversion H; subst; discriminate.
    + destruct (disk_read _ _ _ _) as ([y| |] & dk'); inversion H; subst; discriminate.
Qed.

(** The reply to a request. *)
Definition reply (x : rq) (e : event) : Prop :=
  match rq_data x with
  | Some _ => exists ok, e = EWritten (rq_bid x) ok
  | None => exists d, e = EReadDone (rq_bid x) d
  end.

Lemma serve_step : forall ba c d p a k x s1 e, nth_error p k = Some x ->
  store_step ba (mk_store c d p) (SServe a k) = Some (s1, e) ->
  reply x e /\ st_client s1 = c /\
  forall p' k', nth_error p' k' = Some x ->
    store_step ba (mk_store c d p') (SServe a k') = Some (mk_store (st_client s1) (st_disks s1) (remove_nth k' p'), e).
Proof.
  intros ba c d p a k x s1 e Ex H. cbn [store_step st_client st_disks st_pending] in *. rewrite Ex in H. unfold reply.
  destruct (nth_error d (disk_of (rq_bid x))) as [dk|] eqn:Ed; [|discriminate]. destruct (rq_data x) as [data|] eqn:Er.
  - destruct (disk_write a dk (off_of (rq_bid x)) data) as ([y| |] & dk') eqn:Ew; inversion H; subst; cbn [st_client st_disks];
      csplit; eauto; intros p' k' Ex'; rewrite Ex', Ed, Er, Ew; auto.
  - destruct (disk_read a dk (off_of (rq_bid x)) (len_of (rq_bid x))) as ([y| |] & dk') eqn:Ew; inversion H; subst; cbn [st_client st_disks];
      csplit; eauto; intros p' k' Ex'; rewrite Ex', Ed, Er, Ew; auto.
Qed.

Lemma call_step : forall ba c d p o s1 e, is_call o = true -> store_step ba (mk_store c d p) o = Some (s1, e) ->
  st_pending s1 = p /\
  (forall p', store_step ba (mk_store c d p') o = Some (mk_store (st_client s1) (st_disks s1) p', e)) /\
  match o with
  | SNew tsize f off sizes => forall n p', valid_mop n (MNew tsize f off sizes) -> allowed n (mk_store c d p') o
  | _ => exists b, e = EDelete b /\ forall n p', (forall r, In r p' -> rq_bid r <> b) -> allowed n (mk_store c d p') o
  end.
Proof.
  intros ba c d p o s1 e C H. destruct o as [tsize f off sizes|os i|i data|i|a k]; cbn in C; try discriminate;
    cbn [store_step st_client st_disks st_pending] in *.
  - destruct (mclient_step c _) as [c'|c'|]; inversion H; subst; cbn; csplit; auto.
  - destruct (nth_error (mc_held c) i) as [b|] eqn:Eb; [|discriminate]. destruct (mclient_step c _) as [c'|c'|]; try discriminate.
    destruct (nth_error d (disk_of b)) as [k|]; [|discriminate]. destruct (disk_discard _ _ _ _ _) as [k'|]; inversion H; subst.
    cbn. csplit; auto. exists b. split; auto. intros n p' N. exists b. auto.
Qed.

(** ** Lists of requests with numbers *)

Lemma remove_split : forall {A} (l : list A) k x, nth_error l k = Some x ->
  exists l1 l2, l = l1 ++ x :: l2 /\ remove_nth k l = l1 ++ l2 /\ k = length l1.
Proof.
  induction l as [|y l IH]; intros [|k] x H; cbn in *; try discriminate.
  - inversion H; subst. exists [], l. auto.
  - destruct (IH _ _ H) as (l1 & l2 & E1 & E2 & E3). exists (y :: l1), l2. cbn. rewrite E2, E3, E1 at 1. auto.
Qed.

Definition keep (gone : nat -> nat -> bool) (y : nat * nat * rq) : bool := negb (gone (fst (fst y)) (snd (fst y))).
Definition remain (gone : nat -> nat -> bool) (l : list (nat * nat * rq)) : list rq := map snd (filter (keep gone) l).

Lemma remain_app : forall g l1 l2, remain g (l1 ++ l2) = remain g l1 ++ remain g l2.
Proof. intros. unfold remain. rewrite filter_app, map_app. auto. Qed.

Lemma remain_in : forall g l x, In x (remain g l) -> exists q r, In (q, r, x) l.
Proof.
  intros g l x H. unfold remain in H. apply in_map_iff in H. destruct H as (((q & r) & y) & A & B). cbn in A. subst y.
  apply filter_In in B. exists q, r. apply B.
Qed.

Lemma remain_also : forall g q r x l1 l2, NoDup (map fst (l1 ++ (q, r, x) :: l2)) ->
  remain (and_also g q r) (l1 ++ (q, r, x) :: l2) = remain g (l1 ++ l2).
Proof.
  intros g q r x l1 l2 N. rewrite map_app in N. cbn in N. apply NoDup_remove in N. destruct N as (_ & N).
  rewrite !remain_app.
  assert (G : forall l, (forall z, In z l -> fst z <> (q, r)) -> remain (and_also g q r) l = remain g l).
  { intros l H. unfold remain. f_equal. apply filter_ext_in. intros ((q' & r') & y) I. unfold keep, and_also. cbn.
    specialize (H _ I). cbn in H. destruct (Nat.eqb_spec q' q) as [Q1|Q1]; destruct (Nat.eqb_spec r' r) as [Q2|Q2]; auto.
    exfalso. apply H. congruence. }
  rewrite (G l1) by (intros z I Q; apply N; rewrite <- Q, in_app_iff; left; apply in_map; auto).
  change ((q, r, x) :: l2) with ([(q, r, x)] ++ l2). rewrite remain_app.
  rewrite (G l2) by (intros z I Q; apply N; rewrite <- Q, in_app_iff; right; apply in_map; auto).
  unfold remain at 2. cbn [filter map keep]. unfold keep, and_also. cbn. rewrite !Nat.eqb_refl. reflexivity.
Qed.

(** ** The queues *)

Lemma adv_some : forall e p, QueueProofs.adv e p <> QueueProofs.PNone.
Proof.
  intros e p. destruct e; destruct p as [|c0| | |c0|o st|o|]; cbn; try discriminate;
    try destruct st; try discriminate; repeat match goal with |- context [if ?b then _ else _] => destruct b end; discriminate.
Qed.

Lemma none_kept : forall r l l', loc r l <> QueueProofs.PNone -> loc r (l' ++ l) <> QueueProofs.PNone.
Proof.
  intros r l. induction l' as [|e l' IH]; intros H; auto. cbn [app]. rewrite XferProofs.loc_cons.
  destruct (QueueSpec.about r e); auto. apply adv_some.
Qed.

Lemma plain_flying : forall e p, plain e = true -> QueueProofs.adv e p <> QueueProofs.PBad -> (flying (QueueProofs.adv e p) <-> flying p).
Proof.
  intros e p H N. destruct e; cbn in H; try discriminate; destruct p as [|c0| | |c0|o st|o|]; cbn in *; try congruence; try tauto;
    try (destruct st; cbn in *; try congruence; try tauto);
    repeat match goal with |- context [if ?b then _ else _] => destruct b end; cbn in *; try congruence; tauto.
Qed.
