(** Every step keeps the invariant. *)
From Coq Require Import List Bool Arith Permutation Lia.
From Verif Require Import PoolErrModel PoolErrProofs.
Import ListNotations.

Lemma own_fly : forall s (o1 o2 : list (nat * option nat)) b o r' b', over s o -> flying s r' b' ->
  In (b', Some r') (o1 ++ (b, o) :: o2) -> In (b', Some r') (o1 ++ o2).
Proof.
  intros s o1 o2 b o r' b' Ov F H. destruct (own_split _ _ _ _ H) as [E|E]; auto.
  injection E as <- <-. cbn in Ov. apply flying_status in F. congruence.
Qed.

Lemma places_cnt : forall x y, inv x -> cnt y (wf x) + cnt y (map e_buf (wb x)) + cnt y (pf x) + cnt y (map e_buf (pb x)) +
    cnt y (map fst (own x)) + cnt y (gone x) + cnt y (lost x) = cnt y (seq 0 (next x)).
Proof.
  intros x y I. pose proof (proj1 (perm_cnt _ _) (i_perm x I) y) as P. unfold places in P. cn. lia.
Qed.

Ltac proj := cbn [wf wb pf pb own gone lost next rqs alive] in *.
Ltac permut I := apply perm_cnt; let y := fresh "y" in intros y;
  pose proof (places_cnt _ y I); unfold places; proj; cn; rewrite ?mark_buf.

Lemma inv_wr : forall x s d b r o1 o2, inv x -> own x = o1 ++ (b, r) :: o2 -> over (rqs x) r ->
  progress (rqs x) s ->
  inv (wr d b (MkSt (wf x) (wb x) (pf x) (pb x) (o1 ++ o2) (gone x) (lost x) (next x) (rqs x) (alive x)) s).
Proof.
  intros x s d b r o1 o2 I Ow Ov P. unfold wr. constructor; proj.
  - permut I. rewrite Ow in *. cn. lia.
  - intros r' b' F. apply post_flying in F. unfold home. proj. rewrite busy_app, busy_mark, busy_cons. cbn [e_req e_buf].
    destruct F as [F|(-> & ->)]; [|tauto].
    apply (progress_flying _ _ _ _ P) in F. pose proof (i_fly x I _ _ F) as H. unfold home in H.
    rewrite Ow in H. destruct H as [H|[H|[H|H]]]; auto.
    apply (own_fly (rqs x)) in H; auto.
  - intros N. apply bad_post. eapply bad_progress; eauto. apply (i_bad x I). auto.
Qed.

Lemma inv_hint : forall x d x', inv x -> hint d x x' -> inv x'.
Proof.
  intros x d x' I H. inversion H; subst; auto.
  - constructor; proj.
    + permut I. match goal with K : find d (wb x) = Some _, L : pf x = _ |- _ => pose proof (erase_cnt _ _ _ y K); rewrite L in * end.
      cn. lia.
    + intros r b' F. pose proof (i_fly x I _ _ F) as Hm. unfold home in *. proj. rewrite busy_cons. cbn [e_req e_buf].
      match goal with K : find d (wb x) = Some _ |- _ => rewrite (busy_erase _ _ _ r b' K) in Hm end. tauto.
    + apply (i_bad x I).
  - constructor; proj.
    + permut I. match goal with L : pf x = _ |- _ => rewrite L in * end. cn. lia.
    + intros r b' F. apply post_flying in F. unfold home. proj. rewrite busy_cons. cbn [e_req e_buf].
      destruct F as [F|(-> & ->)]; [|tauto]. pose proof (i_fly x I _ _ F) as Hm. unfold home in Hm. tauto.
    + intros N. apply bad_post. apply (i_bad x I N).
Qed.

Lemma inv_progress : forall x s, inv x -> progress (rqs x) s ->
  inv (MkSt (wf x) (wb x) (pf x) (pb x) (own x) (gone x) (lost x) (next x) s (alive x)).
Proof.
  intros x s I P. constructor; proj.
  - apply (i_perm x I).
  - intros r b F. apply (progress_flying _ _ _ _ P) in F. apply (i_fly x I _ _ F).
  - intros N. eapply bad_progress; eauto. apply (i_bad x I N).
Qed.

Lemma inv_invalidate : forall x d x' r t, inv x -> invalidate d x x' r t -> inv x'.
Proof.
  intros x d x' r t I H. inversion H; subst; auto.
  - constructor; proj.
    + permut I. match goal with K : find d (pb x) = Some _ |- _ => pose proof (erase_cnt _ _ _ y K) end. lia.
    + intros r b' F.
      match goal with K : find d (pb x) = Some _, P : progress _ _ |- _ =>
        pose proof (progress_flying _ _ _ _ P F) as F0; pose proof (i_fly x I _ _ F0) as Hm;
        unfold home in *; proj; rewrite (busy_erase _ _ _ r b' K) in Hm end.
      destruct Hm as [Hm|[[Hm|Hm]|Hm]]; auto. destruct Hm as (<- & _). apply flying_status in F. congruence.
    + intros N. eapply bad_progress; eauto. apply (i_bad x I N).
  - apply inv_progress; auto.
Qed.

(** Removing entries of the write pool that are over. *)
Lemma inv_fly_wb : forall x wb' s r b, inv x -> progress (rqs x) s ->
  (forall e, In e (wb x) -> In e wb' \/ status s (e_req e) = Good) -> flying s r b ->
  at_busy wb' r b \/ at_busy (pb x) r b \/ In (b, Some r) (own x) \/ In b (lost x).
Proof.
  intros x wb' s r b I P L F. pose proof (progress_flying _ _ _ _ P F) as F0. pose proof (i_fly x I _ _ F0) as Hm.
  destruct Hm as [(e & He & <- & <-)|Hm]; auto. destruct (L e He) as [K|K].
  - left. exists e. auto.
  - apply flying_status in F. congruence.
Qed.

Theorem inv_step : forall x o t x', inv x -> step x o t x' -> inv x'.
Proof.
  intros x o t x' I H. inversion H; subst.
  - apply inv_progress; auto.
  - constructor; proj.
    + permut I. rewrite <- Nat.add_1_r, seq_cnt. cbn [seq]. cn. lia.
    + intros r b F. pose proof (i_fly x I _ _ F) as Hm. unfold home in *. proj. cbn [In]. tauto.
    + apply (i_bad x I).
  - constructor; proj.
    + permut I. match goal with K : own x = _ |- _ => rewrite K in * end. cn. lia.
    + intros r' b' F. pose proof (i_fly x I _ _ F) as Hm. unfold home in *. proj.
      match goal with K : own x = _ |- _ => rewrite K in * end.
      destruct Hm as [Hm|[Hm|[Hm|Hm]]]; auto. apply (own_fly (rqs x)) in Hm; auto.
    + apply (i_bad x I).
  - eapply inv_wr; eauto.
  - match goal with K : steal _ _ _ _ _ _ _ _ |- _ => rename K into St end.
    constructor; proj.
    + permut I. pose proof (steal_perm _ _ _ _ _ _ _ _ St y). cn. lia.
    + intros r b' F. unfold home. proj. cbn [In]. rewrite in_app_iff.
      pose proof (inv_fly_wb x wb' s r b' I (steal_progress _ _ _ _ _ _ _ _ St) (steal_left _ _ _ _ _ _ _ _ St) F). tauto.
    + rewrite (steal_ret_lo _ _ _ _ _ _ _ _ St). cbn. intros N. eapply bad_progress; [eapply steal_progress; eauto|].
      apply (i_bad x I N).
  - match goal with K : steal _ _ _ _ _ _ _ _ |- _ => rename K into St end.
    constructor; proj.
    + permut I. pose proof (steal_perm _ _ _ _ _ _ _ _ St y). cn. lia.
    + intros r b' F. unfold home. proj. rewrite in_app_iff.
      pose proof (inv_fly_wb x wb' s r b' I (steal_progress _ _ _ _ _ _ _ _ St) (steal_left _ _ _ _ _ _ _ _ St) F). tauto.
    + intros _. apply steal_throw in St. destruct St as (_ & (e & _ & B) & _). exists (e_req e). auto.
  - constructor; proj.
    + permut I. match goal with K : own x = _ |- _ => rewrite K in * end. cn. lia.
    + intros r' b' F. pose proof (i_fly x I _ _ F) as Hm. unfold home in *. proj.
      match goal with K : own x = _ |- _ => rewrite K in * end.
      destruct Hm as [Hm|[Hm|[Hm|Hm]]]; auto. apply (own_fly (rqs x)) in Hm; auto.
    + apply (i_bad x I).
  - constructor; proj.
    + permut I. rewrite seq_cnt. lia.
    + intros r b F. apply (i_fly x I _ _ F).
    + apply (i_bad x I).
  - match goal with K : shrink _ _ _ _ _ _ _ _ _ _ |- _ => rename K into St end.
    constructor; proj.
    + permut I. pose proof (shrink_perm _ _ _ _ _ _ _ _ _ _ St y). cn. lia.
    + intros r b' F. unfold home. proj. rewrite in_app_iff.
      pose proof (inv_fly_wb x wb' s r b' I (shrink_progress _ _ _ _ _ _ _ _ _ _ St) (shrink_left _ _ _ _ _ _ _ _ _ _ St) F). tauto.
    + destruct t.
      * intros _. apply shrink_throw in St. destruct St as ((e & _ & B) & _). exists (e_req e). auto.
      * pose proof (shrink_ret _ _ _ _ _ _ _ _ _ St) as (-> & _). cbn. intros N.
        eapply bad_progress; [eapply shrink_progress; eauto|]. apply (i_bad x I N).
  - constructor; proj.
    + permut I. match goal with K : find d (wb x) = Some _ |- _ => pose proof (erase_cnt _ _ _ y K) end. lia.
    + intros r b' F. pose proof (i_fly x I _ _ F) as Hm. unfold home in *. proj.
      match goal with K : find d (wb x) = Some _ |- _ => rewrite (busy_erase _ _ _ r b' K) in Hm end.
      cbn [In]. destruct Hm as [[(<- & <-)|Hm]|Hm]; tauto.
    + apply (i_bad x I).
  - eapply inv_hint; eauto.
  - constructor; proj.
    + permut I. match goal with L : pf x = _ |- _ => rewrite L in * end. cn. lia.
    + intros r b' F. apply post_flying in F. unfold home. proj. rewrite busy_cons. cbn [e_req e_buf].
      destruct F as [F|(-> & ->)]; [|tauto]. pose proof (i_fly x I _ _ F) as Hm. unfold home in Hm. tauto.
    + intros N. apply bad_post. apply (i_bad x I N).
  - eapply inv_invalidate; eauto.
  - constructor; proj.
    + permut I. match goal with K : own x = _ |- _ => rewrite K in * end.
      match goal with K : find d (pb x) = Some _ |- _ => pose proof (erase_cnt _ _ _ y K) end. cn. lia.
    + intros r' b' F. pose proof (i_fly x I _ _ F) as Hm. unfold home in *. proj.
      match goal with K : own x = _ |- _ => rewrite K in * end.
      match goal with K : find d (pb x) = Some _ |- _ => rewrite (busy_erase _ _ _ r' b' K) in Hm end. cbn [In].
      destruct Hm as [Hm|[[(<- & <-)|Hm]|[Hm|Hm]]]; auto 6. apply (own_fly (rqs x)) in Hm; auto 6.
    + apply (i_bad x I).
  - constructor; proj.
    + permut I. match goal with K : own x = _ |- _ => rewrite K in * end.
      match goal with K : find d (wb x) = Some _ |- _ => pose proof (erase_cnt _ _ _ y K) end. cn. lia.
    + intros r' b' F. pose proof (i_fly x I _ _ F) as Hm. unfold home in *. proj.
      match goal with K : own x = _ |- _ => rewrite K in * end.
      match goal with K : find d (wb x) = Some _ |- _ => rewrite (busy_erase _ _ _ r' b' K) in Hm end. cbn [In].
      destruct Hm as [[(<- & <-)|Hm]|[Hm|[Hm|Hm]]]; auto 6. apply (own_fly (rqs x)) in Hm; auto 6.
    + apply (i_bad x I).
  - constructor; proj.
    + permut I. match goal with K : own x = _ |- _ => rewrite K in * end. cn. lia.
    + intros r' b' F. apply post_flying in F. unfold home in *. proj. cbn [In].
      destruct F as [F|(-> & ->)]; [|tauto]. pose proof (i_fly x I _ _ F) as Hm. unfold home in Hm.
      match goal with K : own x = _ |- _ => rewrite K in * end.
      destruct Hm as [Hm|[Hm|[Hm|Hm]]]; auto 6. apply (own_fly (rqs x)) in Hm; auto 6.
    + intros N. apply bad_post. apply (i_bad x I N).
  - constructor; proj.
    + permut I. match goal with K : own x = _ |- _ => rewrite K in * end. cn. lia.
    + intros r' b' F. apply post_flying in F. unfold home in *. proj. cbn [In].
      destruct F as [F|(-> & ->)]; [|tauto]. pose proof (i_fly x I _ _ F) as Hm. unfold home in Hm.
      match goal with K : own x = _ |- _ => rewrite K in * end.
      destruct Hm as [Hm|[Hm|[Hm|Hm]]]; auto 6. apply (own_fly (rqs x)) in Hm; auto 6.
    + intros N. apply bad_post. apply (i_bad x I N).
  - constructor; proj.
    + permut I. match goal with K : own x = _ |- _ => rewrite K in * end. cn. lia.
    + intros r' b' F. pose proof (i_fly x I _ _ F) as Hm. unfold home in *. proj.
      match goal with K : own x = _ |- _ => rewrite K in * end.
      destruct Hm as [Hm|[Hm|[Hm|Hm]]]; auto. apply (own_fly (rqs x)) in Hm; auto.
    + apply (i_bad x I).
  - constructor; proj.
    + permut I. match goal with L : pf x = _ |- _ => rewrite L in * end. cn. lia.
    + intros r b' F. pose proof (i_fly x I _ _ F) as Hm. unfold home in *. proj. cbn [In]. tauto.
    + apply (i_bad x I).
  - constructor; proj.
    + permut I. rewrite seq_cnt. lia.
    + intros r b F. apply (i_fly x I _ _ F).
    + apply (i_bad x I).
  - constructor; proj.
    + permut I. match goal with L : pf x = _ |- _ => rewrite L in * end. cn. lia.
    + intros r b F. apply (i_fly x I _ _ F).
    + apply (i_bad x I).
  - match goal with K : invalidate _ _ _ _ _ |- _ => apply inv_invalidate in K; [|eapply inv_wr; eauto] end.
    match goal with K : if ?c then _ else _ |- _ => destruct c; [eapply inv_hint; eauto|subst; auto] end.
  - match goal with K : invalidate _ _ _ _ _ |- _ => apply inv_invalidate in K; [|eapply inv_wr; eauto] end. auto.
  - match goal with K : drain (wb x) _ _ _ _, K2 : drain pb' _ _ _ _, K3 : Permutation (pb x) pb' |- _ =>
      rename K into D1; rename K2 into D2; rename K3 into Pm end.
    assert (P2 : progress s1 s2) by (eapply drain_progress; eauto).
    assert (P1 : progress (rqs x) s1) by (eapply drain_progress; eauto).
    constructor; proj.
    + permut I. pose proof (drain_perm _ _ _ _ _ D1 y). pose proof (drain_perm _ _ _ _ _ D2 y).
      pose proof (proj1 (perm_cnt _ _) (Permutation_map e_buf Pm) y). cn. lia.
    + intros r b F. unfold home. proj. pose proof (progress_flying _ _ _ _ P2 F) as F1.
      pose proof (progress_flying _ _ _ _ P1 F1) as F0. pose proof (i_fly x I _ _ F0) as Hm.
      rewrite !in_app_iff. destruct Hm as [(e & He & <- & <-)|[(e & He & <- & <-)|[Hm|Hm]]]; auto 7.
      * destruct (drain_left _ _ _ _ _ D1 e He) as [K|K]; auto 7. apply flying_status in F1. congruence.
      * destruct (drain_left _ _ _ _ _ D2 e (Permutation_in _ Pm He)) as [K|K]; auto 7. apply flying_status in F. congruence.
    + intros N. destruct lo1 as [|a lo1]; [destruct lo2 as [|a lo2]|].
      * cbn in N. apply (bad_progress s1); auto. apply (bad_progress (rqs x)); auto. apply (i_bad x I N).
      * destruct (drain_lost _ _ _ _ _ D2 ltac:(discriminate)) as (e & _ & B). exists (e_req e). auto.
      * destruct (drain_lost _ _ _ _ _ D1 ltac:(discriminate)) as (e & _ & B). apply (bad_progress s1); auto.
        exists (e_req e). auto.
Qed.

Theorem inv_reach : forall np nw x, reach np nw x -> inv x.
Proof. induction 1; [apply inv_init|eapply inv_step; eauto]. Qed.
