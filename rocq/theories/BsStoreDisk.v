(** A step of the store that leaves a block alone. *)

From Coq Require Import ZArith List Bool Arith Lia Permutation.
From Verif Require Import AllocModel AllocMain ManagerModel ManagerSpec ManagerMain FileModel StoreModel StoreSpec
  StoreProofs StoreProofs2 TogetherStore.
Import ListNotations.

Definition cnt (b : bid) (l : list rq) : nat := length (filter (fun r => bid_eqb b (rq_bid r)) l).

Lemma cnt_perm : forall b l l', Permutation l l' -> cnt b l = cnt b l'.
Proof.
  intros b l l' P. unfold cnt. induction P; cbn; auto.
  - destruct (bid_eqb b (rq_bid x)); cbn; congruence.
  - destruct (bid_eqb b (rq_bid x)), (bid_eqb b (rq_bid y)); reflexivity.
  - congruence.
Qed.
Lemma cnt_remove : forall b l k r, nth_error l k = Some r ->
  cnt b l = (if bid_eqb b (rq_bid r) then 1 else 0) + cnt b (remove_nth k l).
Proof.
  intros b l k r E. rewrite (cnt_perm b _ _ (remove_nth_perm _ _ _ E)). unfold cnt. cbn.
  destruct (bid_eqb b (rq_bid r)); reflexivity.
Qed.
Lemma cnt_snoc : forall b l r, cnt b (l ++ [r]) = cnt b l + (if bid_eqb b (rq_bid r) then 1 else 0).
Proof.
  intros b l r. rewrite (cnt_perm b _ _ (Permutation_sym (Permutation_cons_append l r))). unfold cnt. cbn.
  destruct (bid_eqb b (rq_bid r)); cbn; lia.
Qed.
Lemma cnt_in : forall b l r, In r l -> rq_bid r = b -> 1 <= cnt b l.
Proof.
  intros b l r H E. unfold cnt. induction l as [|x l IH]; [contradiction|]. cbn. destruct H as [->|H].
  - rewrite E, bid_eqb_refl. cbn. lia.
  - destruct (bid_eqb b (rq_bid x)); cbn; specialize (IH H); lia.
Qed.
Lemma cnt_none : forall b l, (forall r, In r l -> rq_bid r <> b) -> cnt b l = 0.
Proof.
  intros b l H. unfold cnt. induction l as [|x l IH]; [reflexivity|]. cbn.
  rewrite bid_eqb_ne; [apply IH; intros; apply H; right; auto|]. intros E. apply (H x); [left|]; auto.
Qed.

(** The step is not about this block. *)
Definition not_at (b : bid) (s : store) (o : sop) : Prop :=
  match o with
  | SNew _ _ _ _ => True
  | SDelete _ h | SWrite h _ | SRead h => forall b', nth_error (hold s) h = Some b' -> b' <> b
  | SServe _ k => forall r, nth_error (st_pending s) k = Some r -> rq_bid r <> b
  end.

Lemma left_alone : forall ba cfgs tr s o s' e b, sinv cfgs tr s ->
  (forall ts f off sz, o = SNew ts f off sz -> allowed (length cfgs) s o) ->
  store_step ba s o = Some (s', e) -> not_at b s o -> In b (hold s) ->
  In b (hold s') /\ expected (e :: tr) b = expected tr b /\
  (forall r, rq_bid r = b -> (In r (st_pending s') <-> In r (st_pending s))) /\
  cnt b (st_pending s') = cnt b (st_pending s).
Proof.
  intros ba cfgs tr s o s' e b V A St N Hb. destruct o as [tsize f off sizes|os h|h data|h|a q]; cbn [not_at] in N.
  - destruct (new_facts _ _ _ _ _ _ _ _ _ _ V (A _ _ _ _ eq_refl) St) as (Ep & got & -> & Eh & Ng). rewrite Ep, Eh.
    split; [apply in_or_app; auto|]. split; [apply expected_alloc_old; auto|]. split; [tauto|auto].
  - destruct (delete_facts _ _ _ _ _ _ _ _ V St) as (Ep & b' & Eb & -> & Eh). rewrite Ep.
    specialize (N _ Eb). split; [apply Eh; auto|]. split; [reflexivity|]. split; [tauto|auto].
  - destruct (write_facts _ _ _ _ _ _ St) as (b' & Eb & -> & Eh & Ep). rewrite Ep, Eh. specialize (N _ Eb).
    split; auto. split; [cbn [expected]; rewrite bid_eqb_ne; auto|]. split.
    + intros r E. apply in_snoc. cbn. congruence.
    + rewrite cnt_snoc. cbn [rq_bid]. rewrite bid_eqb_ne; auto.
  - destruct (read_facts _ _ _ _ _ St) as (b' & Eb & -> & Eh & Ep). rewrite Ep, Eh. specialize (N _ Eb).
    split; auto. split; [reflexivity|]. split.
    + intros r E. apply in_snoc. cbn. congruence.
    + rewrite cnt_snoc. cbn [rq_bid]. rewrite bid_eqb_ne; auto.
  - destruct (serve_facts _ _ _ _ _ _ St) as (r & Er & Eh & Ep & Ed). rewrite Ep, Eh. specialize (N _ Er).
    split; auto. split; [|split].
    + destruct (rq_data r); destruct Ed as (x & ->); cbn [expected]; auto.
      destruct x; auto. rewrite bid_eqb_ne; auto.
    + intros r' E. eapply in_remove; eauto. congruence.
    + rewrite (cnt_remove b _ _ _ Er). rewrite bid_eqb_ne; auto.
Qed.

(** A request that is served, of a block with one request. *)
Lemma served_one : forall ba s a k s' e r b, store_step ba s (SServe a k) = Some (s', e) ->
  nth_error (st_pending s) k = Some r -> rq_bid r = b -> cnt b (st_pending s) <= 1 ->
  forall r', In r' (st_pending s') -> rq_bid r' <> b.
Proof.
  intros ba s a k s' e r b St Er E C r' H Q.
  destruct (serve_facts _ _ _ _ _ _ St) as (r2 & Er2 & _ & Ep & _). rewrite Ep in H.
  rewrite (cnt_remove b _ _ _ Er), E, bid_eqb_refl in C. pose proof (cnt_in b _ _ H Q). lia.
Qed.
