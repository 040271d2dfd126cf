(** Pools: every operation keeps the structural invariant. *)

From Coq Require Import ZArith List Bool Lia Permutation.
From Verif Require Import PoolModel PoolSpec PoolProofs.
Import ListNotations.

(** ** The map of the prefetch pool *)

Lemma p_find_in : forall d l e, p_find d l = Some e -> In e l /\ p_bid e = d.
Proof.
  induction l; cbn; intros; [discriminate|].
  destruct (bid_eqb (p_bid a) d) eqn:E.
  - inversion H; subst. apply bid_eqb_eq in E. auto.
  - apply IHl in H. tauto.
Qed.

Lemma p_find_none : forall d l, p_find d l = None <-> ~ In d (map p_bid l).
Proof.
  induction l; cbn; [tauto|].
  destruct (bid_eqb (p_bid a) d) eqn:E.
  - apply bid_eqb_eq in E. split; [discriminate|tauto].
  - apply bid_eqb_neq in E. tauto.
Qed.

Lemma p_erase_none : forall d l, ~ In d (map p_bid l) -> p_erase d l = l.
Proof.
  induction l; cbn; auto. intros.
  destruct (bid_eqb (p_bid a) d) eqn:E; cbn.
  - apply bid_eqb_eq in E. tauto.
  - f_equal; apply IHl; tauto.
Qed.

Lemma p_find_split : forall d l e, NoDup (map p_bid l) -> p_find d l = Some e ->
  exists l1 l2, l = l1 ++ e :: l2 /\ p_erase d l = l1 ++ l2 /\ p_bid e = d.
Proof.
  induction l; cbn; intros e N H; [discriminate|]. inversion N; subst.
  destruct (bid_eqb (p_bid a) d) eqn:E; cbn.
  - inversion H; subst. apply bid_eqb_eq in E. exists [], l; cbn. csplit; auto.
    apply p_erase_none. rewrite <- E; auto.
  - destruct (IHl e H3 H) as (l1 & l2 & -> & B & C).
    exists (a :: l1), l2; cbn. csplit; auto. unfold p_erase in B. rewrite B; auto.
Qed.

Lemma p_erase_in : forall d l e, In e (p_erase d l) <-> In e l /\ p_bid e <> d.
Proof.
  intros. unfold p_erase. rewrite filter_In, negb_true_iff, bid_eqb_neq. tauto.
Qed.

Lemma steal_entry_split : forall d l e l', steal_entry d l = Some (e, l') ->
  exists l1 l2, l = l1 ++ e :: l2 /\ l' = l1 ++ l2 /\ e_bid e = d.
Proof.
  induction l; cbn; intros e l' H; [discriminate|].
  destruct (bid_eqb (e_bid a) d) eqn:E.
  - inversion H; subst. exists [], l'. apply bid_eqb_eq in E. auto.
  - destruct (steal_entry d l) as [[x r]|]; [|discriminate]. inversion H; subst.
    destruct (IHl _ _ eq_refl) as (l1 & l2 & -> & -> & C).
    exists (a :: l1), l2; auto.
Qed.

Lemma has_request_spec : forall w d, has_request w d = true <->
  exists e, In e (w_busy w) /\ e_bid e = d.
Proof.
  intros; unfold has_request. rewrite existsb_exists.
  split; intros (e & A & B); exists e; split; auto; apply bid_eqb_eq; auto.
Qed.

Lemma steal_entry_some : forall d l, (exists e, In e l /\ e_bid e = d) ->
  exists e l', steal_entry d l = Some (e, l').
Proof.
  induction l; intros (e & A & B); [destruct A|]. cbn.
  destruct (bid_eqb (e_bid a) d) eqn:E; [eauto|].
  destruct A as [->|A]; [apply bid_eqb_neq in E; congruence|].
  destruct IHl as (x & r & ->); eauto.
Qed.

Lemma steal_request_split : forall w d buf r w1,
  steal_request w d = Some (buf, r, w1) ->
  exists e l1 l2, w_busy w = l1 ++ e :: l2 /\ w1 = MkWP (w_free w) (l1 ++ l2) /\
    e_bid e = d /\ buf = e_buf e /\ r = e_req e.
Proof.
  unfold steal_request; intros.
  destruct (steal_entry d (w_busy w)) as [[e l]|] eqn:E; [|discriminate].
  inversion H; subst. destruct (steal_entry_split _ _ _ _ E) as (l1 & l2 & A & -> & C).
  exists e, l1, l2; auto.
Qed.

Lemma in_mid : forall {A} (l1 : list A) x l2 y, In y (l1 ++ x :: l2) <-> y = x \/ In y (l1 ++ l2).
Proof. intros; rewrite !in_app_iff; cbn. intuition. Qed.

(** ** Removing a finished entry *)

Lemma SI_remove_w : forall p w s own al l1 e l2,
  SI p w s own al -> w_busy w = l1 ++ e :: l2 -> finished s (e_req e) = true ->
  SI p (MkWP (w_free w) (l1 ++ l2)) s (e_buf e :: own) al.
Proof.
  intros p w s own al l1 e l2 [H1 H2 H3 H4 H5 H6 H7] EQ F.
  assert (Q : Permutation (w_bufs w ++ p_bufs p ++ own)
     (w_bufs (MkWP (w_free w) (l1 ++ l2)) ++ p_bufs p ++ e_buf e :: own)).
  { unfold w_bufs. rewrite EQ. perm. }
  constructor; auto.
  - eapply Permutation_NoDup; eauto.
  - eapply Permutation_trans; [apply Permutation_sym|]; eauto.
  - intros i q N U. destruct (H5 i q N U) as [(x & X1 & X2 & X3)|X]; [|right; auto].
    rewrite EQ in X1. apply in_mid in X1. destruct X1 as [->|X1].
    + exfalso. apply finished_spec in F. destruct F as (q0 & N0 & F0).
      rewrite X2, N in N0. inversion N0; subst. auto.
    + left. exists x; auto.
  - intros x X. apply H6. rewrite EQ. apply in_mid. auto.
Qed.

Lemma SI_remove_p : forall p w s own al d e,
  SI p w s own al -> p_find d (p_busy p) = Some e -> finished s (p_req e) = true ->
  SI (MkPP (p_free p) (p_fsize p) (p_erase d (p_busy p))) w s (p_buf e :: own) al.
Proof.
  intros p w s own al d e [H1 H2 H3 H4 H5 H6 H7] PF F.
  destruct (p_find_split _ _ _ H4 PF) as (l1 & l2 & EQ & ER & ED).
  assert (Q : Permutation (w_bufs w ++ p_bufs p ++ own)
     (w_bufs w ++ p_bufs (MkPP (p_free p) (p_fsize p) (p_erase d (p_busy p)))
       ++ p_buf e :: own)).
  { unfold p_bufs; cbn [p_free p_busy]. rewrite ER, EQ. perm. }
  constructor; auto.
  - eapply Permutation_NoDup; eauto.
  - eapply Permutation_trans; [apply Permutation_sym|]; eauto.
  - cbn. rewrite ER. rewrite EQ, map_app in H4. cbn in H4.
    rewrite map_app. apply NoDup_remove_1 in H4. auto.
  - intros i q N U. destruct (H5 i q N U) as [X|(x & X1 & X2 & X3)]; [left; auto|].
    rewrite EQ in X1. apply in_mid in X1. destruct X1 as [->|X1].
    + exfalso. apply finished_spec in F. destruct F as (q0 & N0 & F0).
      rewrite X2, N in N0. inversion N0; subst. auto.
    + right. exists x; cbn. rewrite ER. auto.
  - intros x X. apply H7. cbn in X. rewrite EQ. apply in_mid. rewrite ER in X. auto.
Qed.

(** ** Posting a request *)

Lemma post_old : forall s wr b d i q,
  nth_error (io_reqs s) i = Some q -> nth_error (io_reqs (post s wr b d)) i = Some q.
Proof.
  intros; cbn. rewrite nth_error_app1; auto. apply nth_error_Some; congruence.
Qed.

Lemma post_new : forall s wr b d,
  nth_error (io_reqs (post s wr b d)) (length (io_reqs s)) = Some (MkReq wr b d Pending).
Proof. intros; cbn. rewrite nth_error_app2, Nat.sub_diag; auto. Qed.

Lemma post_inv : forall s wr b d i q,
  nth_error (io_reqs (post s wr b d)) i = Some q ->
  nth_error (io_reqs s) i = Some q \/ (i = length (io_reqs s) /\ q = MkReq wr b d Pending).
Proof.
  intros s wr b d i q H; cbn in H.
  destruct (Nat.lt_ge_cases i (length (io_reqs s))).
  - rewrite nth_error_app1 in H; auto.
  - rewrite nth_error_app2 in H; auto.
    assert (B : (i - length (io_reqs s) < 1)%nat)
      by (change 1%nat with (length [MkReq wr b d Pending]); apply nth_error_Some; congruence).
    replace (i - length (io_reqs s))%nat with 0%nat in H by lia. cbn in H.
    right; split; [lia|congruence].
Qed.

Lemma SI_post_w : forall p w s own al b d,
  SI p w s (b :: own) al ->
  SI p (MkWP (w_free w) (w_busy w ++ [MkW b (length (io_reqs s)) d])) (post s true b d) own al.
Proof.
  intros p w s own al b d [H1 H2 H3 H4 H5 H6 H7].
  assert (Q : Permutation (w_bufs w ++ p_bufs p ++ b :: own)
     (w_bufs (MkWP (w_free w) (w_busy w ++ [MkW b (length (io_reqs s)) d])) ++ p_bufs p ++ own)).
  { perm. }
  constructor; auto.
  - eapply Permutation_NoDup; eauto.
  - eapply Permutation_trans; [apply Permutation_sym|]; eauto.
  - intros i q N U. destruct (post_inv _ _ _ _ _ _ N) as [N'|(-> & ->)].
    + destruct (H5 i q N' U) as [(x & X1 & X2 & X3)|X]; [left|right; auto].
      exists x; cbn; rewrite in_app_iff; auto.
    + left. eexists; cbn; rewrite in_app_iff. split; [right; left; reflexivity|auto].
  - intros e E. cbn in E. apply in_app_iff in E. destruct E as [E|[<-|[]]].
    + destruct (H6 e E) as (q & N & R). exists q; split; auto. apply post_old; auto.
    + eexists; split; [apply post_new|]; cbn; auto.
  - intros e E. destruct (H7 e E) as (q & N & R). exists q; split; auto. apply post_old; auto.
Qed.

Lemma SI_post_p : forall p w s own al b d,
  SI p w s (b :: own) al -> p_find d (p_busy p) = None -> b_storage d <> O ->
  SI (MkPP (p_free p) (p_fsize p) (p_set (MkP d b (length (io_reqs s))) (p_busy p)))
     w (post s false b d) own al.
Proof.
  intros p w s own al b d [H1 H2 H3 H4 H5 H6 H7] PF SD.
  apply p_find_none in PF.
  unfold p_set; cbn [p_bid]. rewrite (p_erase_none _ _ PF).
  set (e0 := MkP d b (length (io_reqs s))).
  assert (Q : Permutation (w_bufs w ++ p_bufs p ++ b :: own)
     (w_bufs w ++ p_bufs (MkPP (p_free p) (p_fsize p) (e0 :: p_busy p)) ++ own)).
  { unfold e0. perm. }
  constructor; auto.
  - eapply Permutation_NoDup; eauto.
  - eapply Permutation_trans; [apply Permutation_sym|]; eauto.
  - cbn. constructor; auto.
  - intros i q N U. destruct (post_inv _ _ _ _ _ _ N) as [N'|(-> & ->)].
    + destruct (H5 i q N' U) as [X|(x & X1 & X2 & X3)]; [left; auto|right].
      exists x; cbn; auto.
    + right. exists e0; cbn; auto.
  - intros e E. destruct (H6 e E) as (q & N & R). exists q; split; auto. apply post_old; auto.
  - intros e E. cbn in E. destruct E as [<-|E].
    + eexists; split; [apply post_new|]; cbn; auto.
    + destruct (H7 e E) as (q & N & R). exists q; split; auto. apply post_old; auto.
Qed.

(** ** Handing an entry from the write pool to the prefetch pool *)

Lemma SI_transfer : forall p w s own al d l1 e l2,
  SI p w s own al -> p_find d (p_busy p) = None -> b_storage d <> O ->
  w_busy w = l1 ++ e :: l2 -> e_bid e = d ->
  SI (MkPP (p_free p) (p_fsize p) (p_set (MkP d (e_buf e) (e_req e)) (p_busy p)))
     (MkWP (w_free w) (l1 ++ l2)) s own al.
Proof.
  intros p w s own al d l1 e l2 [H1 H2 H3 H4 H5 H6 H7] PF SD EQ EB.
  apply p_find_none in PF.
  unfold p_set; cbn [p_bid]. rewrite (p_erase_none _ _ PF).
  set (e0 := MkP d (e_buf e) (e_req e)).
  assert (Q : Permutation (w_bufs w ++ p_bufs p ++ own)
     (w_bufs (MkWP (w_free w) (l1 ++ l2)) ++
      p_bufs (MkPP (p_free p) (p_fsize p) (e0 :: p_busy p)) ++ own)).
  { unfold e0, w_bufs. rewrite EQ. perm. }
  constructor; auto.
  - eapply Permutation_NoDup; eauto.
  - eapply Permutation_trans; [apply Permutation_sym|]; eauto.
  - cbn. constructor; auto.
  - intros i q N U. destruct (H5 i q N U) as [(x & X1 & X2 & X3)|(x & X1 & X2 & X3)].
    + rewrite EQ in X1. apply in_mid in X1. destruct X1 as [->|X1].
      * right. exists e0; cbn; auto.
      * left. exists x; auto.
    + right. exists x; cbn; auto.
  - intros x X. apply H6. rewrite EQ; apply in_mid; auto.
  - intros x X. cbn in X. destruct X as [<-|X]; [|apply H7; auto].
    destruct (H6 e) as (q & N & A & B & C); [rewrite EQ; apply in_mid; auto|].
    exists q; cbn; csplit; auto. destruct C as [C|C]; congruence.
Qed.

(** ** Operations of the write pool *)

Lemma SI_mark_entry : forall p f pre e l s own al,
  SI p (MkWP f (pre ++ e :: l)) s own al ->
  SI p (MkWP f (pre ++ MkW (e_buf e) (e_req e) (MkBid 0 (b_offset (e_bid e))) :: l)) s own al.
Proof.
  intros p f pre e l s own al [H1 H2 H3 H4 H5 H6 H7].
  unfold w_bufs in *; cbn in *. rewrite map_app in *; cbn in *.
  constructor; unfold w_bufs; cbn; rewrite ?map_app; cbn; auto.
  - intros i q N U. destruct (H5 i q N U) as [(x & X1 & X2 & X3)|X]; [left|right; auto].
    cbn in X1. apply in_mid in X1. cbn. destruct X1 as [->|X1].
    + eexists; split; [apply in_mid; left; reflexivity|auto].
    + exists x; split; auto. apply in_mid; auto.
  - intros x X. apply in_mid in X. destruct X as [->|X].
    + destruct (H6 e) as (q & N & A & B & C); [apply in_mid; auto|].
      exists q; cbn; auto.
    + apply H6. apply in_mid; auto.
Qed.

Lemma SI_mark : forall fifo d buf p f own al l s l' s',
  w_mark fifo d buf l s l' s' -> forall pre,
  SI p (MkWP f (pre ++ l)) s own al -> SI p (MkWP f (pre ++ l')) s' own al.
Proof.
  intros fifo d buf p f own al l s l' s' H; induction H; intros pre I0; auto.
  - specialize (IHw_mark (pre ++ [e])). rewrite <- !app_assoc in IHw_mark; auto.
  - apply SI_mark_entry in I0.
    apply SI_evol with (s' := cancel s1 (e_req e)) in I0.
    + match goal with |- SI _ (MkWP _ (_ ++ ?x :: _)) _ _ _ =>
        specialize (IHw_mark (pre ++ [x])) end.
      rewrite <- !app_assoc in IHw_mark; auto.
    + eapply evol_trans; [eapply env_evol; eauto|apply cancel_evol].
Qed.

Lemma SI_write : forall fifo p w s b d w' s' r own al,
  w_write fifo w s b d w' s' r -> SI p w s (b :: own) al -> SI p w' s' own al.
Proof.
  intros fifo p w s b d w' s' r own al H I0. destruct H.
  apply (SI_post_w p (MkWP (w_free w) l)). 
  apply (SI_mark _ _ _ _ _ _ _ _ _ _ _ H []). destruct w; auto.
Qed.

Lemma SI_check : forall fifo p own al l s mv rest s',
  w_check fifo l s mv rest s' -> forall f pre,
  SI p (MkWP f (pre ++ l)) s own al -> SI p (MkWP (f ++ mv) (pre ++ rest)) s' own al.
Proof.
  intros fifo p own al l s mv rest s' H; induction H; intros f pre I0.
  - rewrite app_nil_r; auto.
  - apply SI_evol with (s' := s1) in I0; [|eapply env_evol; eauto].
    apply SI_remove_w with (l1 := pre) (e := e) (l2 := l) in I0; auto.
    specialize (IHw_check (f ++ [e_buf e]) pre).
    rewrite <- app_assoc in IHw_check. apply IHw_check.
    eapply SI_free; [exact I0|reflexivity|reflexivity|apply I0|]. perm.
  - apply SI_evol with (s' := s1) in I0; [|eapply env_evol; eauto].
    specialize (IHw_check f (pre ++ [e])). rewrite <- !app_assoc in IHw_check. auto.
Qed.

Lemma w_check_len : forall fifo l s mv rest s', w_check fifo l s mv rest s' ->
  (length mv + length rest = length l)%nat.
Proof. intros fifo l s mv rest s' H; induction H; cbn; lia. Qed.

Lemma SI_steal : forall fifo p w s w' s' b own al,
  w_steal fifo w s w' s' b -> SI p w s own al -> SI p w' s' (b :: own) al.
Proof.
  intros fifo p w s w' s' b own al H I0. destruct H.
  - eapply SI_free; [exact I0|reflexivity|reflexivity|apply I0|]. cbn. rewrite H. perm.
  - apply SI_evol with (s' := s1) in I0; [|eapply env_evol; eauto].
    eapply SI_remove_w in I0; eauto.
    eapply (SI_check _ _ _ _ _ _ _ _ _ H3 _ []). exact I0.
Qed.

Lemma w_steal_size : forall fifo w s w' s' b,
  w_steal fifo w s w' s' b -> w_size w = S (w_size w').
Proof.
  intros fifo w s w' s' b H; destruct H; unfold w_size; cbn.
  - rewrite H, app_length; cbn; lia.
  - apply w_check_len in H3. rewrite H, H1. cbn. rewrite !app_length in *; cbn. lia.
Qed.

Lemma SI_steals : forall fifo p own al k w s w' s' bs,
  w_steals fifo k w s w' s' bs -> SI p w s own al ->
  SI p w' s' (bs ++ own) al /\ w_size w = (k + w_size w')%nat /\ length bs = k.
Proof.
  intros fifo p own al k w s w' s' bs H; revert own; induction H; intros own I0.
  - auto.
  - pose proof (w_steal_size _ _ _ _ _ _ H) as SZ. eapply SI_steal in H; eauto.
    apply IHw_steals in H. destruct H as (A & B & C). csplit; [|lia|cbn; lia].
    eapply SI_perm; [exact A|]. perm.
Qed.

Lemma SI_resize_w : forall fifo p w s nx n w' s' nx' del own al,
  w_resize fifo w s nx n w' s' nx' del -> SI p w s own al ->
  (forall b, In b al -> b < nx)%nat ->
  w_size w' = n /\ (nx <= nx')%nat /\
  (del = [] \/ nx' = nx) /\ (forall b, In b del -> ~ busy_buffer s' b) /\
  exists al', SI p w' s' own al' /\ Permutation (del ++ al') (al ++ seq nx (nx' - nx)).
Proof.
  intros fifo p w s nx n w' s' nx' del own al H I0 LT. destruct H.
  - csplit.
    + unfold w_size in *; cbn. rewrite app_length, seq_length. lia.
    + lia.
    + auto.
    + intros b [].
    + exists (seq nx (n - w_size w) ++ al). split.
      * apply SI_fresh_seq with (k := (n - w_size w)%nat) (nx := nx) in I0; auto.
        eapply SI_free; [exact I0|reflexivity|reflexivity|apply I0|]. cbn. clear; perm.
      * replace (nx + (n - w_size w) - nx)%nat with (n - w_size w)%nat by lia.
        cbn. apply Permutation_app_comm.
  - destruct (SI_steals _ _ _ _ _ _ _ _ _ _ H0 I0) as (A & B & C).
    csplit; [lia|auto|auto| |].
    { intros b X. eapply not_busy; [exact A|]. rewrite !in_app_iff; auto. }
    exists (w_bufs w' ++ p_bufs p ++ own). pose proof (si_all _ _ _ _ _ A) as P.
    assert (Q : Permutation (bs ++ w_bufs w' ++ p_bufs p ++ own) al).
    { eapply Permutation_trans; [|exact P]. clear; perm. }
    split.
    + eapply SI_drops; [exact A|]. apply Permutation_sym; auto.
    + rewrite Nat.sub_diag; cbn. rewrite app_nil_r. auto.
Qed.
