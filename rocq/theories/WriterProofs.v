(** Buffered writer: the invariant. *)

From Coq Require Import List Arith Bool ZArith Lia Permutation.
From Verif Require Import WriterModel WriterSpec.
Import ListNotations.

Ltac csplit := repeat match goal with |- _ /\ _ => split end.

Lemma bid_eqb_eq : forall a b, bid_eqb a b = true <-> a = b.
Proof.
  intros [x y] [x' y']. unfold bid_eqb; cbn. rewrite andb_true_iff, Nat.eqb_eq, Z.eqb_eq.
  split; [intros (-> & ->); auto|intros E; inversion E; auto].
Qed.

Lemma updn_same : forall {B} (f : nat -> B) k v, updn f k v k = v.
Proof. intros; unfold updn; rewrite Nat.eqb_refl; auto. Qed.
Lemma updn_other : forall {B} (f : nat -> B) k v x, x <> k -> updn f k v x = f x.
Proof. intros; unfold updn; destruct (x =? k) eqn:E; auto. apply Nat.eqb_eq in E; congruence. Qed.

Lemma set_nth_length : forall {B} (l : list B) k v, length (set_nth k v l) = length l.
Proof. induction l; destruct k; cbn; intros; auto. Qed.
Lemma set_nth_same : forall {B} (l : list B) k v, k < length l -> nth_error (set_nth k v l) k = Some v.
Proof. induction l; destruct k; cbn; intros; auto; try lia. apply IHl; lia. Qed.
Lemma set_nth_other : forall {B} (l : list B) k v j, j <> k -> nth_error (set_nth k v l) j = nth_error l j.
Proof. induction l; destruct k, j; cbn; intros; auto; congruence. Qed.

Lemma firstn_skipn_perm : forall {B} (l : list B) k b, nth_error l k = Some b ->
  Permutation l (b :: firstn k l ++ skipn (S k) l).
Proof.
  induction l; destruct k; intros b H; cbn in *; try discriminate.
  - inversion H; auto.
  - eapply Permutation_trans; [apply perm_skip, IHl; eauto|]. apply perm_swap.
Qed.

(** ** Permutations of buffer lists *)

Lemma perm_count : forall l1 l2 : list nat,
  (forall x, count_occ Nat.eq_dec l1 x = count_occ Nat.eq_dec l2 x) -> Permutation l1 l2.
Proof. intros; apply (Permutation_count_occ Nat.eq_dec); auto. Qed.

Lemma count_cons : forall (a x : nat) l,
  count_occ Nat.eq_dec (a :: l) x
  = (if Nat.eq_dec a x then 1 else 0) + count_occ Nat.eq_dec l x.
Proof. intros; cbn. destruct (Nat.eq_dec a x); auto. Qed.

Ltac perm :=
  repeat match goal with
  | H : Permutation _ _ |- _ =>
      let K := fresh "PC" in
      assert (K := proj1 (Permutation_count_occ Nat.eq_dec _ _) H); clear H
  end;
  apply perm_count; intro;
  repeat match goal with
  | K : forall x, count_occ Nat.eq_dec _ x = _ |- context [count_occ Nat.eq_dec _ ?y] =>
      specialize (K y)
  end;
  repeat (rewrite ?map_app, ?count_occ_app, ?count_cons, ?count_occ_nil in *; cbn [map snd] in *);
  lia.

Section Inv.
Context {A : Type}.
Implicit Types s : wst A.

Definition pcb (pc : wpc) : list nat :=
  match pc with WFlush b _ => [b] | WPush b _ => [b] | _ => [] end.

Definition pcd s : list (bid * A) :=
  match w_pc s with
  | WFlush b d => [(d, w_mem s b)] | WPush b d => [(d, w_mem s b)] | _ => []
  end.

Definition posted_of (mem : nat -> A) (l : list wreq) : list (bid * A) :=
  flat_map (fun r => match r_ph r with Posted => [(r_bid r, mem (r_buf r))] | _ => [] end) l.

Definition batch_of (mem : nat -> A) (bids : nat -> bid) (l : list (Z * nat)) : list (bid * A) :=
  map (fun e => (bids (snd e), mem (snd e))) l.

Definition closing (pc : wpc) : Prop :=
  match pc with FFlush | FWait _ | DFlush | DWait _ | Dead => True | _ => False end.

Definition waited (pc : wpc) : option (list nat) :=
  match pc with FWait l => Some l | DWait l => Some l | Dead => Some [] | _ => None end.

Definition disk_after (disk0 : bid -> A) (ws : list (bid * A)) : bid -> A :=
  fold_left (fun f w => updb f (fst w) (snd w)) ws disk0.

Record Inv (n bs : nat) (disk0 : bid -> A) (tr : list (wlabel A)) s (limbo : list nat) : Prop := mkInv {
  v_n    : w_n s = n;
  v_bs   : w_bs s = bs /\ 1 <= bs;
  v_bufs : Permutation (w_free s ++ w_busy s ++ map snd (w_batch s) ++ w_held s
                        ++ pcb (w_pc s) ++ limbo) (seq 0 n);
  v_limbo : ~ closing (w_pc s) -> limbo = [];
  v_req  : forall i r, nth_error (w_reqs s) i = Some r -> r_ph r <> Ready ->
           In (r_buf r) (w_busy s) /\ w_wreqs s (r_buf r) = Some i;
  v_own  : forall b i, w_wreqs s b = Some i ->
           exists r, nth_error (w_reqs s) i = Some r /\ r_buf r = b;
  v_busy : forall b, In b (w_busy s) -> w_wreqs s b <> None;
  v_data : Permutation (calls tr)
             (served tr ++ posted_of (w_mem s) (w_reqs s)
              ++ batch_of (w_mem s) (w_bids s) (w_batch s) ++ pcd s);
  v_wait : forall l, waited (w_pc s) = Some l -> w_batch s = [] /\
           (forall b, In b (w_busy s) -> In b l \/ is_ready s b = Some true) /\
           incl l (w_busy s);
  v_batch : length (w_batch s) <= bs /\
            forall b d, w_pc s = WPush b d -> length (w_batch s) < bs;
  v_held : closing (w_pc s) -> w_held s = [];
  v_disk : forall d, w_disk s d = disk_after disk0 (served tr) d
}.

Lemma calls_app : forall t1 t2 : list (wlabel A), calls (t1 ++ t2) = calls t1 ++ calls t2.
Proof. induction t1 as [|[] t1]; intros; cbn; auto. rewrite IHt1; auto. Qed.
Lemma served_app : forall t1 t2 : list (wlabel A), served (t1 ++ t2) = served t1 ++ served t2.
Proof. induction t1 as [|[] t1]; intros; cbn; auto. rewrite IHt1; auto. Qed.

Lemma posted_app : forall mem l1 l2, posted_of mem (l1 ++ l2) = posted_of mem l1 ++ posted_of mem l2.
Proof. intros; apply flat_map_app. Qed.

Lemma posted_set : forall mem l i r r', nth_error l i = Some r -> r_ph r' <> Posted ->
  Permutation (posted_of mem l)
    (match r_ph r with Posted => [(r_bid r, mem (r_buf r))] | _ => [] end ++
     posted_of mem (set_nth i r' l)).
Proof.
  induction l as [|x l]; destruct i; intros r r' H N; cbn in *; try discriminate.
  - inversion H; subst. destruct (r_ph r'); try congruence; cbn; auto.
  - specialize (IHl i r r' H N). eapply Permutation_trans; [apply Permutation_app_head; exact IHl|].
    rewrite !app_assoc. apply Permutation_app_tail, Permutation_app_comm.
Qed.

Lemma posted_mem : forall mem mem' l,
  (forall r, In r l -> r_ph r = Posted -> mem' (r_buf r) = mem (r_buf r)) ->
  posted_of mem' l = posted_of mem l.
Proof.
  unfold posted_of. induction l as [|x l]; intros H; cbn; auto.
  rewrite IHl; [|intros; apply H; cbn; auto].
  destruct (r_ph x) eqn:E; auto. rewrite H; cbn; auto.
Qed.

Lemma batch_ext : forall mem mem' bids bids' l,
  (forall b, In b (map snd l) -> mem' b = mem b /\ bids' b = bids b) ->
  batch_of mem' bids' l = batch_of mem bids l.
Proof.
  unfold batch_of. induction l as [|x l]; intros H; cbn; auto. rewrite IHl; [|intros; apply H; cbn; auto].
  destruct (H (snd x)) as (-> & ->); cbn; auto.
Qed.

Lemma inv_nodup : forall n bs disk0 tr s limbo, Inv n bs disk0 tr s limbo ->
  NoDup (w_free s ++ w_busy s ++ map snd (w_batch s) ++ w_held s ++ pcb (w_pc s) ++ limbo).
Proof.
  intros * V. eapply Permutation_NoDup; [apply Permutation_sym, (v_bufs _ _ _ _ _ _ V)|].
  apply seq_NoDup.
Qed.

Lemma nodup_app_not : forall {B} (l1 l2 : list B) x, NoDup (l1 ++ l2) -> In x l1 -> ~ In x l2.
Proof.
  induction l1; intros l2 x N H; cbn in *; [tauto|]. inversion N; subst.
  destruct H as [->|H]; auto. intros H'; apply H2; apply in_or_app; auto.
Qed.

Lemma nodup_app_r : forall {B} (l1 l2 : list B), NoDup (l1 ++ l2) -> NoDup l2.
Proof. induction l1; cbn; intros; auto. inversion H; auto. Qed.

(** A buffer that is not busy takes part in no transfer. *)
Lemma inv_idle : forall n bs disk0 tr s limbo b, Inv n bs disk0 tr s limbo ->
  ~ In b (w_busy s) -> ~ in_flight s b.
Proof.
  intros * V N (r & H & E & P). apply In_nth_error in H. destruct H as (i & H).
  apply N. rewrite <- E. apply (v_req _ _ _ _ _ _ V i r H P).
Qed.

Lemma inv_ready_idle : forall n bs disk0 tr s limbo b i r, Inv n bs disk0 tr s limbo ->
  is_ready s b = Some true -> nth_error (w_reqs s) i = Some r -> r_buf r = b -> r_ph r = Ready.
Proof.
  intros * V R H E. destruct (r_ph r) eqn:P; auto; exfalso;
  (destruct (v_req _ _ _ _ _ _ V i r H) as (_ & W); [congruence|]);
  rewrite E in W; unfold is_ready, ready in R; rewrite W in R;
  rewrite H, P in R; discriminate.
Qed.

Lemma inv_init : forall bsz bt mem bids disk0,
  let s := w_init bsz bt mem bids disk0 in
  Inv (w_n s) (w_bs s) disk0 [] s [].
Proof.
  intros. subst s. constructor; cbn; auto.
  - split; auto. destruct bt; lia.
  - rewrite !app_nil_r. auto.
  - intros i r H; destruct i; discriminate.
  - discriminate.
  - intros l H; discriminate.
  - split; [lia|]. discriminate.
Qed.

End Inv.
