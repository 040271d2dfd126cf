(** C81 and C82: the buffer pools when I/O requests fail. *)
From Coq Require Import List Bool Arith Permutation Lia.
From Verif Require Import PoolErrModel PoolErrProofs PoolErrProofs2.
Import ListNotations.

Ltac csplit := repeat match goal with |- _ /\ _ => split end.

(** *** C81: memory *)

(** Every block that was ever made is at exactly one place. *)
Theorem C81_every_block_once : forall np nw x, reach np nw x ->
  NoDup (wf x ++ map e_buf (wb x) ++ pf x ++ map e_buf (pb x) ++ map fst (own x) ++ gone x ++ lost x) /\
  forall b, In b (wf x ++ map e_buf (wb x) ++ pf x ++ map e_buf (pb x) ++ map fst (own x) ++ gone x ++ lost x)
            <-> b < next x.
Proof.
  intros np nw x R. apply inv_reach in R. pose proof (i_perm x R) as P. unfold places in P. split.
  - eapply Permutation_NoDup; [apply Permutation_sym; eauto|apply seq_NoDup].
  - intros b. split; intros H.
    + apply (Permutation_in _ P) in H. apply in_seq in H. lia.
    + apply (Permutation_in _ (Permutation_sym P)). apply in_seq. lia.
Qed.
Print Assumptions C81_every_block_once.

(** A block of a request in flight is never free, never deleted, and never given to
    the client without that request. *)
Theorem C81_no_use_in_flight : forall np nw x r b, reach np nw x -> flying (rqs x) r b ->
  ~ In b (wf x) /\ ~ In b (pf x) /\ ~ In b (gone x) /\ (forall o, In (b, o) (own x) -> o = Some r).
Proof.
  intros np nw x r b R F. apply inv_reach in R.
  assert (C : forall y, cnt y (wf x) + cnt y (map e_buf (wb x)) + cnt y (pf x) + cnt y (map e_buf (pb x)) +
    cnt y (map fst (own x)) + cnt y (gone x) + cnt y (lost x) <= 1).
  { intros y. rewrite (places_cnt x y R). unfold cnt. apply (NoDup_count_occ Nat.eq_dec). apply seq_NoDup. }
  specialize (C b). pose proof (i_fly x R r b F) as H. unfold home in H.
  assert (B : forall l, at_busy l r b -> 1 <= cnt b (map e_buf l)).
  { intros l (e & He & _ & <-). apply in_cnt. apply in_map. auto. }
  assert (O : forall o, In (b, o) (own x) -> 1 <= cnt b (map fst (own x))).
  { intros o Ho. apply in_cnt. apply in_map_iff. exists (b, o). auto. }
  rewrite !in_cnt.
  assert (O2 : In (b, Some r) (own x) -> forall o, In (b, o) (own x) -> o = Some r).
  { intros H1 o H2. pose proof (O _ H1) as L.
    destruct (in_split _ _ H1) as (o1 & o2 & E). rewrite E in C, H2. cn.
    apply in_app_or in H2. destruct H2 as [H2|[H2|H2]]; [exfalso| |exfalso].
    - assert (K : In b (map fst o1)) by (apply in_map_iff; exists (b, o); auto). apply in_cnt in K.
      unfold one in C. destruct (Nat.eq_dec b b); lia.
    - congruence.
    - assert (K : In b (map fst o2)) by (apply in_map_iff; exists (b, o); auto). apply in_cnt in K.
      unfold one in C. destruct (Nat.eq_dec b b); lia. }
  assert (O3 : forall o, In (b, o) (own x) -> at_busy (wb x) r b \/ at_busy (pb x) r b \/ In b (lost x) -> False).
  { intros o Ho [K|[K|K]]; pose proof (O o Ho); [apply B in K|apply B in K|apply in_cnt in K]; lia. }
  destruct H as [H|[H|[H|H]]].
  - pose proof (B _ H). csplit; try lia. intros o Ho. exfalso. eauto.
  - pose proof (B _ H). csplit; try lia. intros o Ho. exfalso. eauto.
  - pose proof (O _ H). csplit; try lia. auto.
  - pose proof (proj1 (in_cnt _ _) H). csplit; try lia. intros o Ho. exfalso. eauto.
Qed.
Print Assumptions C81_no_use_in_flight.

(** As long as no request fails nothing is lost and nothing throws ... *)
Theorem C81_no_error_no_loss : forall np nw x o t x', reach np nw x -> step x o t x' ->
  (forall r, status (rqs x') r <> Bad) -> lost x' = [] /\ t = false.
Proof.
  intros np nw x o t x' R S N. pose proof (inv_reach np nw x' (RStep np nw x o t x' R S)) as I. split.
  - destruct (lost x') eqn:E; auto. exfalso. destruct (i_bad x' I) as (r & B); [rewrite E; discriminate|]. apply (N r B).
  - destruct t; auto. exfalso. inversion S; subst; proj.
    + match goal with K : steal _ _ _ _ _ _ _ _ |- _ => apply steal_throw in K; destruct K as (_ & (e & _ & B) & _) end.
      apply (N _ B).
    + match goal with K : shrink _ _ _ _ _ _ _ _ _ _ |- _ => apply shrink_throw in K; destruct K as ((e & _ & B) & _) end.
      apply (N _ B).
    + match goal with K : invalidate _ _ _ _ _ |- _ => inversion K; subst end. apply (N (e_req e)). auto.
    + match goal with K : invalidate _ _ _ _ _ |- _ => inversion K; subst end. apply (N (e_req e)). auto.
Qed.
Print Assumptions C81_no_error_no_loss.

Lemma hint_lost : forall d x x', hint d x x' -> lost x' = lost x /\ alive x' = alive x.
Proof. intros d x x' H. inversion H; subst; auto. Qed.
Lemma invalidate_lost : forall d x x' r t, invalidate d x x' r t -> lost x' = lost x /\ alive x' = alive x.
Proof. intros d x x' r t H. inversion H; subst; auto. Qed.

(** ... a call that returns loses nothing, one that throws at most one block, and
    only steal and resize of the write pool do. *)
Theorem C81_loss_per_call : forall x o t x', step x o t x' -> o <> Destroy ->
  (t = false -> lost x' = lost x) /\
  (t = true -> length (lost x') <= S (length (lost x))) /\
  (lost x' <> lost x -> o = WSteal \/ exists n, o = WResize n).
Proof.
  intros x o t x' S D. inversion S; subst; try congruence; unfold wr in *; proj;
    try (csplit; intros; try discriminate; auto; congruence).
  - match goal with K : steal _ _ _ _ _ _ _ _ |- _ => apply steal_ret_lo in K; subst end. csplit; intros; auto; discriminate.
  - match goal with K : steal _ _ _ _ _ _ _ _ |- _ => apply steal_throw in K; destruct K as (_ & _ & L) end.
    csplit; intros; auto; [discriminate|]. rewrite app_length. lia.
  - csplit; intros; subst; eauto.
    + match goal with K : shrink _ _ _ _ _ _ _ _ _ _ |- _ => apply shrink_ret in K; destruct K as (-> & _) end. auto.
    + match goal with K : shrink _ _ _ _ _ _ _ _ _ _ |- _ => apply shrink_throw in K; destruct K as (_ & L) end.
      rewrite app_length. lia.
  - match goal with K : hint _ _ _ |- _ => apply hint_lost in K; destruct K as (-> & _) end. csplit; intros; auto; congruence.
  - match goal with K : invalidate _ _ _ _ _ |- _ => apply invalidate_lost in K; destruct K as (-> & _) end.
    csplit; intros; auto; congruence.
  - match goal with K : invalidate _ _ _ _ _ |- _ => apply invalidate_lost in K; destruct K as (L & _); proj end.
    assert (L' : lost x' = lost x).
    { destruct had; [|congruence].
      match goal with K : hint _ _ _ |- _ => apply hint_lost in K; destruct K as (K & _); congruence end. }
    rewrite L'. csplit; intros; auto; congruence.
  - match goal with K : invalidate _ _ _ _ _ |- _ => apply invalidate_lost in K; destruct K as (L & _); proj end.
    rewrite L. csplit; intros; auto; congruence.
Qed.
Print Assumptions C81_loss_per_call.

(** The destructors never throw.  They delete the free blocks and, of each pool, the
    busy blocks before the first that failed; that one and all after it are lost,
    even if they were written without error. *)
Lemma drain_split : forall l s s' del lo, drain l s s' del lo ->
  exists l1 l2, l = l1 ++ l2 /\ del = map e_buf l1 /\ lo = map e_buf l2 /\
    (forall e, In e l1 -> status s' (e_req e) = Good) /\
    match l2 with [] => True | e :: _ => status s' (e_req e) = Bad end.
Proof.
  induction 1 as [s|e l s s1 s2 del lo P B D IH|e l s s1 P B].
  - exists [], []. csplit; auto. intros e [].
  - destruct IH as (l1 & l2 & -> & -> & -> & G & Hd). exists (e :: l1), l2. csplit; auto.
    intros x [<-|Hx]; auto. rewrite (progress_status s1 s2); auto; [|congruence]. eapply drain_progress; eauto.
  - exists [], (e :: l). csplit; auto. intros x [].
Qed.

Theorem C81_destructor : forall x t x', step x Destroy t x' ->
  t = false /\ wf x' = [] /\ wb x' = [] /\ pf x' = [] /\ pb x' = [] /\
  exists w1 w2 p1 p2, wb x = w1 ++ w2 /\ Permutation (pb x) (p1 ++ p2) /\
    gone x' = wf x ++ map e_buf w1 ++ pf x ++ map e_buf p1 ++ gone x /\
    lost x' = map e_buf w2 ++ map e_buf p2 ++ lost x /\
    (forall e, In e (w1 ++ p1) -> status (rqs x') (e_req e) = Good) /\
    match w2 with [] => True | e :: _ => status (rqs x') (e_req e) = Bad end /\
    match p2 with [] => True | e :: _ => status (rqs x') (e_req e) = Bad end.
Proof.
  intros x t x' S. inversion S; subst. proj. csplit; auto.
  match goal with K : drain (wb x) _ _ _ _, K2 : drain pb' _ _ _ _ |- _ => rename K into D1; rename K2 into D2 end.
  assert (P2 : progress s1 s2) by (eapply drain_progress; eauto).
  destruct (drain_split _ _ _ _ _ D1) as (w1 & w2 & E1 & -> & -> & G1 & B1).
  destruct (drain_split _ _ _ _ _ D2) as (p1 & p2 & E2 & -> & -> & G2 & B2).
  exists w1, w2, p1, p2. rewrite <- E2. csplit; auto.
  - intros e He. apply in_app_or in He. destruct He as [He|He]; auto.
    rewrite (progress_status s1 s2); auto. rewrite G1; auto. discriminate.
  - destruct w2; auto. rewrite (progress_status s1 s2); auto. congruence.
Qed.
Print Assumptions C81_destructor.

(** Without failures nothing leaks: after the destructor every block is deleted or
    the client's. *)
Theorem C81_no_leak : forall np nw x t x', reach np nw x -> step x Destroy t x' ->
  (forall r, status (rqs x') r <> Bad) -> forall b, b < next x' -> In b (gone x') \/ In b (map fst (own x')).
Proof.
  intros np nw x t x' R S N b B. destruct (C81_no_error_no_loss np nw x Destroy t x' R S N) as (L & _).
  pose proof (RStep np nw x _ _ _ R S) as R'. apply C81_every_block_once in R'. destruct R' as (_ & P).
  apply P in B. apply C81_destructor in S. destruct S as (_ & E1 & E2 & E3 & E4 & _).
  rewrite E1, E2, E3, E4, L in B. cbn in B. rewrite app_nil_r in B. apply in_app_or in B. tauto.
Qed.
Print Assumptions C81_no_leak.

(** *** C82: errors *)

(** With a failed request among the busy blocks and no free block, steal throws. *)
Theorem C82_steal_throws : forall x t x' e, step x WSteal t x' -> wf x = [] ->
  In e (wb x) -> status (rqs x) (e_req e) = Bad -> t = true.
Proof.
  intros x t x' e S F H B. inversion S; subst; auto. exfalso.
  match goal with K : steal _ _ _ _ _ _ _ _ |- _ => inversion K; subst end.
  - match goal with K : wf x = _ ++ [_] |- _ => rewrite F in K; symmetry in K; apply app_eq_nil in K; destruct K; discriminate end.
  - match goal with W : wait_any _ _ _ _, C : check _ _ _ _ _ _ |- _ =>
      pose proof (wait_any_progress _ _ _ _ W) as P; apply wait_any_found in W; destruct W as (E & G);
      pose proof (check_returns _ _ _ _ _ C) as N end.
    assert (B1 : status s1 (e_req e) = Bad) by (rewrite (progress_status (rqs x) s1); auto; congruence).
    rewrite E in H. apply in_app_or in H. destruct H as [H|[<-|H]].
    + apply (N e); auto. apply in_or_app. auto.
    + congruence.
    + apply (N e); auto. apply in_or_app. auto.
Qed.
Print Assumptions C82_steal_throws.

Lemma shrink_throw_free : forall k f b s f' b' s' del lo, shrink k f b s f' b' s' del lo true -> length f < k.
Proof.
  intros k f b s f' b' s' del lo H. remember true as t eqn:E. revert E.
  induction H; intros E; try discriminate.
  - specialize (IHshrink E). match goal with W : steal _ _ _ _ _ _ _ _ |- _ => inversion W; subst end.
    + rewrite app_length. cbn. lia.
    + cbn. lia.
  - match goal with W : steal _ _ _ _ _ _ _ _ |- _ => apply steal_throw in W; destruct W as (-> & _) end. cbn. lia.
Qed.

(** Only these throw: steal and resize of the write pool if free blocks do not
    suffice and a write has failed; invalidate and write if the read of that block
    has failed. *)
Theorem C82_throws_only : forall x o x', step x o true x' ->
  match o with
  | WSteal => wf x = [] /\ exists e, In e (wb x') /\ status (rqs x') (e_req e) = Bad
  | WResize n => n < length (wb x) /\ exists e, In e (wb x') /\ status (rqs x') (e_req e) = Bad
  | Invalidate d | RwWrite d => exists e, find d (pb x) = Some e /\ status (rqs x') (e_req e) = Bad
  | _ => False
  end.
Proof.
  intros x o x' S. inversion S; subst; proj.
  - match goal with K : steal _ _ _ _ _ _ _ _ |- _ => apply steal_throw in K; tauto end.
  - match goal with K : shrink _ _ _ _ _ _ _ _ _ _ |- _ =>
      pose proof (shrink_throw_free _ _ _ _ _ _ _ _ _ K); apply shrink_throw in K; destruct K as (K1 & _) end.
    split; [lia|exact K1].
  - match goal with K : invalidate _ _ _ _ _ |- _ => inversion K; subst end. proj. eauto.
  - match goal with K : invalidate _ _ _ _ _ |- _ => inversion K; subst end. unfold wr in *. proj. eauto.
Qed.
Print Assumptions C82_throws_only.

(** While the pools live, a failed request is never dropped: it stays in a pool, or
    its block goes to the client together with it, so that waiting for it throws. *)
Definition known (x : st) (r b : nat) : Prop :=
  at_busy (wb x) r b \/ at_busy (pb x) r b \/ In (b, Some r) (own x).

Definition busy (x : st) (r b : nat) : Prop := at_busy (wb x) r b \/ at_busy (pb x) r b.

Lemma hint_busy : forall d x x' r b, hint d x x' -> busy x r b -> busy x' r b.
Proof.
  intros d x x' r b H K. unfold busy in *. inversion H; subst; auto; proj; rewrite busy_cons; cbn [e_req e_buf].
  - match goal with F : find d (wb x) = Some _ |- _ => rewrite (busy_erase _ _ _ r b F) in K end. tauto.
  - tauto.
Qed.
Lemma invalidate_busy : forall d x x' i t r b, invalidate d x x' i t -> busy x r b -> status (rqs x') r <> Good -> busy x' r b.
Proof.
  intros d x x' i t r b H K N. unfold busy in *. inversion H; subst; auto; proj.
  match goal with F : find d (pb x) = Some _ |- _ => rewrite (busy_erase _ _ _ r b F) in K end.
  destruct K as [K|[(<- & _)|K]]; auto. congruence.
Qed.
Lemma wr_busy : forall d b0 x s r b, busy x r b -> busy (wr d b0 x s) r b.
Proof. intros. unfold busy, wr in *. proj. rewrite busy_app, busy_mark. tauto. Qed.

Lemma status_lt : forall s r, status s r = Bad -> r < length s.
Proof.
  intros s r H. unfold status in H. apply nth_error_Some. destruct (nth_error s r); congruence.
Qed.

Lemma step_status : forall x o t x' r, step x o t x' -> status (rqs x) r = Bad -> status (rqs x') r = Bad.
Proof.
  intros x o t x' r S B.
  assert (P : forall s, progress (rqs x) s -> status s r = Bad) by (intros s P; rewrite (progress_status (rqs x) s); auto; congruence).
  assert (Q : forall s b rd, status s r = Bad -> status (post s b rd) r = Bad).
  { intros s b rd H. rewrite post_status; auto. apply status_lt in H. lia. }
  assert (H1 : forall d y y', hint d y y' -> status (rqs y) r = Bad -> status (rqs y') r = Bad).
  { intros d y y' H Hb. inversion H; subst; auto; proj. apply Q. auto. }
  assert (H2 : forall d y y' i tt, invalidate d y y' i tt -> status (rqs y) r = Bad -> status (rqs y') r = Bad).
  { intros d y y' i tt H Hb. inversion H; subst; auto; proj;
      (rewrite (progress_status (rqs y) s); auto; congruence). }
  inversion S; subst; unfold wr in *; proj; auto; try (apply Q; auto; fail).
  - apply P. eapply steal_progress; eauto.
  - apply P. eapply steal_progress; eauto.
  - apply P. eapply shrink_progress; eauto.
  - eapply H1; eauto.
  - eapply H2; eauto.
  - match goal with K : invalidate _ _ _ _ _ |- _ => apply H2 in K; [|proj; apply Q; auto] end.
    destruct had; [eapply H1; eauto|subst; auto].
  - match goal with K : invalidate _ _ _ _ _ |- _ => apply H2 in K; [|proj; apply Q; auto] end. auto.
  - apply P. eapply progress_trans; eapply drain_progress; eauto.
Qed.

Theorem C82_failure_kept : forall x o t x' r b, step x o t x' -> o <> Destroy ->
  status (rqs x) r = Bad -> busy x r b -> known x' r b.
Proof.
  intros x o t x' r b S D B K. pose proof (step_status x o t x' r S B) as B'.
  assert (KB : forall y, busy y r b -> known y r b) by (unfold busy, known; tauto).
  assert (St : forall wb' s, (forall e, In e (wb x) -> In e wb' \/ status s (e_req e) = Good) ->
             status s r = Bad -> at_busy (wb x) r b -> at_busy wb' r b).
  { intros wb' s L Bs (e & He & <- & <-). destruct (L e He) as [H|H]; [exists e; auto|congruence]. }
  inversion S; subst; try congruence; try (apply KB; exact K).
  - apply KB. apply wr_busy. exact K.
  - apply KB. unfold busy in *. proj. destruct K as [K|K]; auto. left.
    eapply St; eauto. eapply steal_left; eauto.
  - apply KB. unfold busy in *. proj. destruct K as [K|K]; auto. left.
    eapply St; eauto. eapply steal_left; eauto.
  - apply KB. unfold busy in *. proj. destruct K as [K|K]; auto. left.
    eapply St; eauto. eapply shrink_left; eauto.
  - unfold known, busy in *. proj. cbn [In].
    match goal with F : find d (wb x) = Some _ |- _ => rewrite (busy_erase _ _ _ r b F) in K end.
    destruct K as [[(<- & <-)|K]|K]; auto.
  - apply KB. eapply hint_busy; eauto.
  - apply KB. unfold busy in *. proj. rewrite busy_cons. tauto.
  - apply KB. eapply invalidate_busy; eauto. congruence.
  - unfold known, busy in *. proj. cbn [In].
    match goal with F : find d (pb x) = Some _ |- _ => rewrite (busy_erase _ _ _ r b F) in K end.
    destruct K as [K|[(<- & <-)|K]]; auto.
  - unfold known, busy in *. proj. cbn [In].
    match goal with F : find d (wb x) = Some _ |- _ => rewrite (busy_erase _ _ _ r b F) in K end.
    destruct K as [[(<- & <-)|K]|K]; auto.
  - apply KB.
    match goal with F : invalidate _ ?y ?z _ _ |- _ => rename F into Iv; assert (K2 : busy z r b) end.
    { eapply invalidate_busy; eauto; [apply wr_busy; exact K|].
      destruct had; [|subst; congruence]. intros G.
      match goal with H : hint _ _ _ |- _ => inversion H; subst; proj; try congruence end.
      rewrite post_status in B'; [congruence|]. intros ->. rewrite post_status_new in B'. discriminate. }
    destruct had; [eapply hint_busy; eauto|subst; auto].
  - apply KB. eapply invalidate_busy; eauto; [|congruence]. apply wr_busy. exact K.
Qed.
Print Assumptions C82_failure_kept.

(** A write that failed and was then overwritten can not be taken out any more: it
    stays for the life of the pool, and steal throws whenever no block is free. *)
Theorem C82_stale_failure_stays : forall x o t x' e, step x o t x' -> o <> Destroy ->
  In e (wb x) -> e_bid e = 0 -> status (rqs x) (e_req e) = Bad ->
  In e (wb x') /\ status (rqs x') (e_req e) = Bad.
Proof.
  intros x o t x' e S D H Z B. pose proof (step_status x o t x' _ S B) as B'. split; auto.
  assert (Er : forall d l y, d <> 0 -> find d l = Some y -> In e l -> In e (erase d l)).
  { intros d l y Nd F I. apply find_split in F. destruct F as (l1 & l2 & -> & -> & E).
    rewrite in_app_iff in *. cbn in I. destruct I as [I|[I|I]]; auto. congruence. }
  assert (Mk : forall d l, d <> 0 -> In e l -> In e (mark d l)).
  { intros d l Nd I. unfold mark. apply in_map_iff. exists e. split; auto. rewrite Z.
    destruct (Nat.eqb_spec 0 d); auto. congruence. }
  assert (Hi : forall d y y', d <> 0 -> hint d y y' -> In e (wb y) -> In e (wb y')).
  { intros d y y' Nd Hh I. inversion Hh; subst; auto; proj. eapply Er; eauto. }
  assert (Iv : forall d y y' i tt, invalidate d y y' i tt -> wb y' = wb y).
  { intros d y y' i tt Hh. inversion Hh; subst; auto. }
  inversion S; subst; try congruence; unfold wr in *; proj; auto.
  - apply in_or_app. left. auto.
  - match goal with K : steal _ _ _ _ _ _ _ _ |- _ => destruct (steal_left _ _ _ _ _ _ _ _ K e H); auto; congruence end.
  - match goal with K : steal _ _ _ _ _ _ _ _ |- _ => destruct (steal_left _ _ _ _ _ _ _ _ K e H); auto; congruence end.
  - match goal with K : shrink _ _ _ _ _ _ _ _ _ _ |- _ => destruct (shrink_left _ _ _ _ _ _ _ _ _ _ K e H); auto; congruence end.
  - eapply Er; eauto.
  - eapply Hi; eauto.
  - match goal with K : invalidate _ _ _ _ _ |- _ => apply Iv in K; rewrite K; auto end.
  - eapply Er; eauto.
  - match goal with K : invalidate _ _ _ _ _ |- _ => apply Iv in K; proj end.
    assert (In e (wb x2)) by (rewrite H5; apply in_or_app; left; auto).
    destruct had; [eapply Hi; eauto|subst; auto].
  - match goal with K : invalidate _ _ _ _ _ |- _ => apply Iv in K; proj; rewrite K end. apply in_or_app. left. auto.
Qed.
Print Assumptions C82_stale_failure_stays.

(** *** Concrete runs *)
Inductive run : st -> list (op * bool) -> st -> Prop :=
| RunNil : forall x, run x [] x
| RunCons : forall x o t x1 l x2, step x o t x1 -> run x1 l x2 -> run x ((o, t) :: l) x2.

Lemma run_reach : forall np nw x l x', reach np nw x -> run x l x' -> reach np nw x'.
Proof. intros np nw x l x' R H. induction H; auto. apply IHrun. eapply RStep; eauto. Qed.

(** Two blocks are written, the second write fails. *)
Definition two_writes : st :=
  MkSt [] [MkE 1 0 0; MkE 2 1 1] [] [] [] [] [] 2 [MkRq 0 false Good; MkRq 1 false Bad] true.

Lemma two_writes_run : run (init 0 2) [(WSteal, false); (WSteal, false); (WWrite 1, false); (WWrite 2, false); (Idle, false)] two_writes.
Proof.
  eapply RunCons; [eapply SStealRet; [reflexivity|apply (StealFree [0; 1] [] [] [0] 1 eq_refl)]|]. proj. cbn [app].
  eapply RunCons; [eapply SStealRet; [reflexivity|apply (StealFree [0] [] [] [] 0 eq_refl)]|]. proj. cbn [app].
  eapply RunCons; [apply (SWrite _ [] 1 0 None [] [(1, None)]); cbn; auto; constructor|]. unfold wr. proj. cbn [mark map app length post].
  eapply RunCons; [apply (SWrite _ [MkRq 0 false Flight] 2 1 None [] []); cbn; auto; repeat constructor|].
  unfold wr. proj. cbn [mark map app length post Nat.eqb e_bid].
  eapply RunCons; [apply (SIdle _ [MkRq 0 false Good; MkRq 1 false Bad])|].
  - repeat constructor; cbn; auto.
  - apply RunNil.
Qed.

(** The naive claim that a throwing steal changes nothing: the block whose write was
    all right is lost, and every later steal throws. *)
Definition after_steal : st :=
  MkSt [] [MkE 2 1 1] [] [] [] [] [0] 2 [MkRq 0 false Good; MkRq 1 false Bad] true.

Theorem C82_steal_loses_refuted :
  step two_writes WSteal true after_steal /\ In 0 (lost after_steal) /\
  forall t x, step after_steal WSteal t x -> t = true.
Proof.
  csplit.
  - apply (SStealThrow two_writes [] [MkE 2 1 1] [MkRq 0 false Good; MkRq 1 false Bad] [0] eq_refl).
    eapply (StealLose [] _ _ _ [] (MkE 1 0 0) [MkE 2 1 1]); [reflexivity| |].
    + apply WaFirst; [|discriminate]. apply WalkGood; [apply progress_refl|reflexivity].
    + apply ChkBad; [apply progress_refl|reflexivity].
  - left. auto.
  - intros t x S. apply (C82_steal_throws _ _ _ (MkE 2 1 1) S); cbn; auto.
Qed.
Print Assumptions C82_steal_loses_refuted.

(** The naive claim that a failed write is reported: no call throws, and after the
    destructor nobody can know. *)
Theorem C82_silent_failure_refuted : exists x,
  run (init 0 2) [(WSteal, false); (WSteal, false); (WWrite 1, false); (WWrite 2, false); (Idle, false); (Destroy, false)] x /\
  status (rqs x) 1 = Bad /\ lost x = [1].
Proof.
  eexists. csplit.
  - change [(WSteal, false); (WSteal, false); (WWrite 1, false); (WWrite 2, false); (Idle, false); (Destroy, false)] with
      ([(WSteal, false); (WSteal, false); (WWrite 1, false); (WWrite 2, false); (Idle, false)] ++ [(Destroy, false)]).
    assert (App : forall x l y l' z, run x l y -> run y l' z -> run x (l ++ l') z).
    { intros x l y l' z H. induction H; intros K; auto. cbn. eapply RunCons; eauto. }
    eapply App; [apply two_writes_run|]. eapply RunCons; [|apply RunNil].
    eapply (SDestroy two_writes [] (rqs two_writes) (rqs two_writes) [0] [1] [] []); auto.
    + apply (DrainGood (MkE 1 0 0) _ _ (rqs two_writes)); [apply progress_refl|reflexivity|].
      apply (DrainBad (MkE 2 1 1)); [apply progress_refl|reflexivity].
    + apply DrainNil.
  - reflexivity.
  - reflexivity.
Qed.
Print Assumptions C82_silent_failure_refuted.

Example C81_case : reach 0 2 two_writes.
Proof. eapply run_reach; [apply RInit|apply two_writes_run]. Qed.

Example C82_case : exists t x, step two_writes WSteal t x /\ wf two_writes = [] /\
  In (MkE 2 1 1) (wb two_writes) /\ status (rqs two_writes) 1 = Bad.
Proof.
  exists true, after_steal. csplit; auto; [apply C82_steal_loses_refuted|cbn; auto].
Qed.
