(** The queues transfer bytes the way AsyncModel says. *)

From Coq Require Import ZArith List Bool Lia.
From Coq Require Cantor.
From Verif Require Import WriterProofs QueueModel QueueSpec QueueProofs QueueLife QueueTrace XferModel XferSpec.
From Verif Require AsyncModel AsyncSpec AsyncProofs.
Import ListNotations.

Lemma number_inj : forall d r d' r', number d r = number d' r' -> d = d' /\ r = r'.
Proof. intros d r d' r' H. unfold number in H. apply Cantor.to_nat_inj in H. inversion H. auto. Qed.

Lemma put_same : forall A d (x : A) f, put d x f d = x.
Proof. intros. unfold put. rewrite Nat.eqb_refl. auto. Qed.
Lemma put_other : forall A d (x : A) f e, e <> d -> put d x f e = f e.
Proof. intros A d x f e H. unfold put. apply Nat.eqb_neq in H. rewrite H. auto. Qed.

Lemma run_app : forall s1 t1 s2 t2 s3, AsyncModel.run s1 t1 s2 -> AsyncModel.run s2 t2 s3 -> AsyncModel.run s1 (t1 ++ t2) s3.
Proof. intros s1 t1 s2 t2 s3 R1 R2. induction R1; cbn; auto; [eapply AsyncModel.RSilent|eapply AsyncModel.RLabel]; eauto. Qed.
Lemma run_one : forall s l s', AsyncModel.step s (Some l) s' -> AsyncModel.run s [l] s'.
Proof. intros. eapply AsyncModel.RLabel; eauto. constructor. Qed.

(** Requests that are posted, and neither transferred nor removed. *)
Definition flying (p : ph) : Prop := match p with PPush _ | PQueued | PServe => True | _ => False end.

Definition fits (s : world) (e : AsyncModel.entry) (d r : nat) : Prop :=
  AsyncModel.e_id e = number d r /\ g_par s d r = Some (AsyncModel.e_client e, AsyncModel.e_req e) /\
  flying (loc r (st_log (g_q s d))) /\
  match loc r (st_log (g_q s d)) with
  | PServe => AsyncModel.e_todo e = g_todo s d
  | _ => AsyncModel.e_started e = false /\ AsyncModel.e_todo e = AsyncModel.offsets (AsyncModel.r_size (AsyncModel.e_req e))
  end.

Record inv (ks : nat -> kind) (n : nat) (w : AsyncModel.loc -> Z) (t : list happening) (s : world) (x : AsyncModel.state) : Prop := {
  v_reach : forall d, qreachable (ks d) n (g_q s d);
  v_log : forall d e, In (HQueue d e) t -> In e (st_log (g_q s d));
  v_par : forall d c r a, In (HPost d c r a) t <-> g_par s d r = Some (c, a);
  v_none : forall d r, g_par s d r = None <-> loc r (st_log (g_q s d)) = PNone;
  v_run : AsyncModel.run (AsyncModel.MkS w []) (views t) x;
  v_val : AsyncModel.s_val x = g_val s;
  v_ids : NoDup (map AsyncModel.e_id (AsyncModel.s_fly x));
  v_pend : AsyncProofs.pend x = AsyncSpec.pending [] (views t);
  v_fits : forall e, In e (AsyncModel.s_fly x) -> exists d r, fits s e d r;
  v_has : forall d r, flying (loc r (st_log (g_q s d))) -> exists e, In e (AsyncModel.s_fly x) /\ AsyncModel.e_id e = number d r }.

Lemma inv_begin : forall ks n w, inv ks n w [] (begin n w) (AsyncModel.MkS w []).
Proof.
  intros ks n w. constructor; cbn; try (intros; tauto).
  - intros d. apply steps_refl.
  - intros d c r a. split; [intros []|discriminate].
  - constructor.
  - constructor.
Qed.

Lemma good_reach : forall k n q r, qreachable k n q -> loc r (st_log q) <> PBad.
Proof. intros k n q r R. eapply loc_good. eapply linv_reachable. exact R. Qed.

Lemma serving : forall k n q r, qreachable k n q -> (loc r (st_log q) = PServe <-> st_wpc q = WServe r).
Proof.
  intros k n q r R. pose proof (linv_reachable _ _ _ R) as L. split.
  - intros E. assert (A : active (loc r (st_log q))) by (rewrite E; exact Logic.I).
    apply (l_act k q L) in A. rewrite E in A. remember PServe as p eqn:Ep. destruct A as [p A|c pc p A B|v A].
    + subst p. destruct (st_wpc q); cbn in A; try discriminate; inversion A; auto.
    + subst p. destruct pc; cbn in B; discriminate.
    + discriminate.
  - intros W. apply (l_own k q L). apply own_w. rewrite W. reflexivity.
Qed.

Lemma pend_snoc : forall x t l x', AsyncProofs.pend x = AsyncSpec.pending [] t -> AsyncProofs.pend x' = AsyncSpec.after (AsyncProofs.pend x) l ->
  AsyncProofs.pend x' = AsyncSpec.pending [] (t ++ [l]).
Proof. intros x t l x' H E. unfold AsyncSpec.pending in *. rewrite fold_left_app. cbn. rewrite <- H. exact E. Qed.

Lemma same_id : forall (l : list AsyncModel.entry) e e', NoDup (map AsyncModel.e_id l) -> In e l -> In e' l ->
  AsyncModel.e_id e = AsyncModel.e_id e' -> e = e'.
Proof.
  induction l as [|y l IH]; intros e e' N H H' E; [destruct H|]. inversion N as [|? ? N1 N2]; subst.
  destruct H as [H|H]; destruct H' as [H'|H']; subst; auto.
  - exfalso. apply N1. rewrite E. apply in_map. auto.
  - exfalso. apply N1. rewrite <- E. apply in_map. auto.
Qed.

Lemma remove_ids : forall l1 (e : AsyncModel.entry) l2, NoDup (map AsyncModel.e_id (l1 ++ e :: l2)) ->
  NoDup (map AsyncModel.e_id (l1 ++ l2)) /\ forall e', In e' (l1 ++ l2) -> AsyncModel.e_id e' <> AsyncModel.e_id e.
Proof.
  intros l1 e l2 N. rewrite map_app in N. cbn in N. apply NoDup_remove in N. destruct N as (N & M). rewrite <- map_app in N, M.
  split; auto. intros e' I E. apply M. rewrite <- E. apply in_map. auto.
Qed.

Lemma in_snoc : forall A (x y : A) l, In x (l ++ [y]) <-> In x l \/ x = y.
Proof. intros. rewrite in_app_iff. cbn. intuition. Qed.

(** What an event does to the phases of the requests. *)
Lemma loc_cons : forall r e l, loc r (e :: l) = if about r e then adv e (loc r l) else loc r l.
Proof. reflexivity. Qed.

Lemma about_self : forall r e, (exists c, e = ECreate c r) \/ e = EPop r \/ (exists ok, e = EServe r ok) \/ (exists c, e = EErase c r) -> about r e = true.
Proof. intros r e H. destruct H as [(c & ->)|[->|[(ok & ->)|(c & ->)]]]; cbn; apply Nat.eqb_refl. Qed.

Lemma plain_flying : forall e p, plain e = true -> adv e p <> PBad ->
  (flying (adv e p) <-> flying p) /\ (flying p -> p <> PServe /\ adv e p <> PServe) /\ adv e p <> PNone /\ p <> PNone.
Proof.
  intros e p H N. destruct e; cbn in H; try discriminate; destruct p as [|c0| | |c0|o st|o|]; cbn in *; try congruence;
    try (destruct st; cbn in *; try congruence);
    try (csplit; intuition congruence);
    repeat match goal with |- context [if ?b then _ else _] => destruct b end; cbn in *; try congruence; csplit; intuition congruence.
Qed.

Section Step.
Variables (ks : nat -> kind) (n : nat) (w : AsyncModel.loc -> Z).

Lemma reach_put : forall s d q', (forall d, qreachable (ks d) n (g_q s d)) -> step (ks d) (g_q s d) q' ->
  forall d', qreachable (ks d') n (put d q' (g_q s) d').
Proof.
  intros s d q' R T d'. unfold put. destruct (Nat.eqb_spec d' d) as [Q|D]; auto. subst d'.
  eapply steps_trans; eauto. apply R.
Qed.

Lemma log_put : forall s d q' l, st_log q' = l ++ st_log (g_q s d) ->
  forall d' e, In e (st_log (g_q s d')) -> In e (st_log (put d q' (g_q s) d')).
Proof.
  intros s d q' l E d' e I. unfold put. destruct (Nat.eqb_spec d' d) as [Q|D]; auto. subst d'. rewrite E. apply in_app_iff. auto.
Qed.

(** A step of a queue after which all requests are in the same place for the transfers. *)
Lemma inv_same : forall t s x d q' l h, inv ks n w t s x -> step (ks d) (g_q s d) q' -> st_log q' = l ++ st_log (g_q s d) ->
  (forall r, loc r (st_log q') = PNone <-> loc r (st_log (g_q s d)) = PNone) ->
  (forall r, flying (loc r (st_log q')) <-> flying (loc r (st_log (g_q s d)))) ->
  (forall r, flying (loc r (st_log q')) -> loc r (st_log q') = loc r (st_log (g_q s d)) \/
     loc r (st_log q') <> PServe /\ loc r (st_log (g_q s d)) <> PServe) ->
  (h = [] \/ exists e, h = [HQueue d e] /\ In e (st_log q')) ->
  inv ks n w (t ++ h) (MkW (put d q' (g_q s)) (g_par s) (g_todo s) (g_val s)) x.
Proof.
  intros t s x d q' l h V T E N F P H. destruct V as [V1 V2 V3 V4 V5 V6 V7 V8 V9 V10].
  assert (HV : views (t ++ h) = views t).
  { unfold views. rewrite flat_map_app. destruct H as [->|(e & -> & _)]; cbn; apply app_nil_r. }
  constructor; cbn [g_q g_par g_todo g_val]; rewrite ?HV; auto.
  - apply reach_put; auto.
  - intros d' e I. apply in_app_iff in I. destruct I as [I|I].
    + eapply log_put; eauto.
    + destruct H as [->|(e' & -> & H)]; [destruct I|]. destruct I as [I|[]]. inversion I; subst. rewrite put_same. auto.
  - intros d' c r a. rewrite <- V3, in_app_iff. split; auto. intros [I|I]; auto.
    destruct H as [->|(e' & -> & H)]; [destruct I|]. destruct I as [I|[]]. discriminate.
  - intros d' r. rewrite V4. unfold put. destruct (Nat.eqb_spec d' d) as [Q|D]; [|tauto]. subst d'. symmetry. apply N.
  - intros e I. destruct (V9 e I) as (d' & r & A & B & C & D). exists d', r. unfold fits. cbn [g_q g_par g_todo]. unfold put.
    destruct (Nat.eqb_spec d' d) as [Q|M]; [|csplit; auto]. subst d'. csplit; auto; [apply F; auto|].
    destruct (P r (proj2 (F r) C)) as [->|(P1 & P2)]; auto.
    destruct (loc r (st_log (g_q s d))); cbn in C; try tauto; destruct (loc r (st_log q')); auto; try congruence.
  - intros d' r. unfold put. destruct (Nat.eqb_spec d' d) as [Q|M]; auto. subst d'. intros C. apply V10, F, C.
Qed.

(** A request leaves: it was transferred or removed. *)
Lemma inv_leave : forall t s x d q' ev r c a h lab, inv ks n w t s x -> step (ks d) (g_q s d) q' ->
  st_log q' = ev :: st_log (g_q s d) -> about r ev = true -> (forall r', about r' ev = true -> r' = r) ->
  flying (loc r (st_log (g_q s d))) -> ~ flying (loc r (st_log q')) -> loc r (st_log q') <> PNone ->
  g_par s d r = Some (c, a) -> view h = [lab] ->
  (forall d' e, h <> HQueue d' e) -> (forall d' c' r' a', h <> HPost d' c' r' a') ->
  (lab = AsyncModel.Done c (number d r) \/ lab = AsyncModel.Fail c (number d r) \/ lab = AsyncModel.Cancel c (number d r)) ->
  (forall l1 e l2, AsyncModel.s_fly x = l1 ++ e :: l2 -> fits s e d r ->
     AsyncModel.step x (Some lab) (AsyncModel.MkS (AsyncModel.s_val x) (l1 ++ l2))) ->
  exists x', inv ks n w (t ++ [h]) (MkW (put d q' (g_q s)) (g_par s) (g_todo s) (g_val s)) x'.
Proof.
  intros t s x d q' ev r c a h lab V T E A1 A2 F NF NN P HV H1 H2 HL St. destruct V as [V1 V2 V3 V4 V5 V6 V7 V8 V9 V10].
  destruct (V10 d r F) as (e & Ie & Eid).
  assert (Fe : fits s e d r).
  { destruct (V9 e Ie) as (d' & r' & X). destruct X as (X1 & X). rewrite Eid in X1. apply number_inj in X1. destruct X1 as (<- & <-).
    split; auto. }
  destruct (in_split _ _ Ie) as (l1 & l2 & Fl). specialize (St l1 e l2 Fl Fe).
  rewrite Fl in V7. destruct (remove_ids _ _ _ V7) as (N1 & N2).
  assert (Ev : views (t ++ [h]) = views t ++ [lab]).
  { unfold views. rewrite flat_map_app. cbn. rewrite HV. auto. }
  assert (Lo : forall r', r' <> r -> loc r' (st_log q') = loc r' (st_log (g_q s d))).
  { intros r' N. rewrite E, loc_cons. destruct (about r' ev) eqn:B; auto. exfalso. auto. }
  exists (AsyncModel.MkS (AsyncModel.s_val x) (l1 ++ l2)).
  constructor; cbn [g_q g_par g_todo g_val AsyncModel.s_val AsyncModel.s_fly]; rewrite ?Ev; auto.
  - apply reach_put; auto.
  - intros d' e' I. apply in_snoc in I. destruct I as [I|I]; [|exfalso; apply (H1 d' e'); auto].
    eapply (log_put s d q' [ev]); eauto.
  - intros d' c' r' a'. rewrite <- V3, in_snoc. split; auto. intros [I|I]; auto. exfalso. apply (H2 d' c' r' a'); auto.
  - intros d' r'. rewrite V4. unfold put. destruct (Nat.eqb_spec d' d) as [Q|D]; [|tauto]. subst d'.
    destruct (Nat.eq_dec r' r) as [Q|M]; [|rewrite Lo; tauto]. subst r'. split; intros X; [|congruence].
    rewrite X in F. destruct F.
  - eapply run_app; eauto. apply run_one. exact St.
  - eapply pend_snoc; eauto. unfold AsyncProofs.pend. cbn [AsyncModel.s_fly]. rewrite Fl.
    destruct Fe as (X1 & X2 & _). rewrite P in X2. inversion X2; subst c a. rewrite <- X1 in HL.
    destruct HL as [->|[->| ->]]; cbn [AsyncSpec.after]; symmetry; apply AsyncProofs.filter_id; auto.
  - intros e' I. destruct (V9 e') as (d' & r' & X1 & X2 & X3 & X4).
    { rewrite Fl. apply in_app_iff in I. apply in_app_iff. cbn. tauto. }
    exists d', r'. unfold fits. cbn [g_q g_par g_todo]. unfold put. destruct (Nat.eqb_spec d' d) as [Q|D]; [|csplit; auto].
    subst d'. assert (M : r' <> r). { intros ->. apply (N2 e' I). congruence. }
    rewrite Lo by auto. csplit; auto.
  - intros d' r' C.
    assert (K : flying (loc r' (st_log (g_q s d'))) /\ (d', r') <> (d, r)).
    { unfold put in C. destruct (Nat.eqb_spec d' d) as [Q|D].
      - subst d'. destruct (Nat.eq_dec r' r) as [Q|M]; [subst r'; tauto|]. rewrite Lo in C by auto. split; auto. congruence.
      - split; auto. congruence. }
    destruct K as (K1 & K2). destruct (V10 d' r' K1) as (e' & I & Eq). exists e'. split; auto.
    rewrite Fl in I. apply in_app_iff in I. apply in_app_iff. destruct I as [I|[I|I]]; auto.
    exfalso. subst e'. rewrite Eid in Eq. apply number_inj in Eq. destruct Eq as (<- & <-). apply K2; auto.
Qed.

Lemma inv_step : forall t s x ho s', inv ks n w t s x -> xstep ks s ho s' ->
  exists x', inv ks n w (t ++ match ho with Some h => [h] | None => [] end) s' x'.
Proof.
  intros t s x ho s' V St.
  destruct St as [s d q' T E|s d q' c r a o T E Ho Op|s d q' r c a T E P|s d r c a k Wp P Hk|s d q' r ok c a T E P Td
    |s d q' r c' c a T E P|s d q' e T E Pl|s c a v|s c a].
  - exists x. eapply (inv_same t s x d q' [] []); eauto; rewrite ?E; tauto.
  - (* post *)
    destruct V as [V1 V2 V3 V4 V5 V6 V7 V8 V9 V10].
    pose proof (good_reach _ _ _ r (reach_put s d q' V1 T d)) as G. rewrite put_same, E, loc_cons in G.
    cbn [about] in G. rewrite Nat.eqb_refl in G.
    assert (L0 : loc r (st_log (g_q s d)) = PNone).
    { destruct (loc r (st_log (g_q s d))) as [|c0| | |c0|o0 st|o0|]; cbn in G; try congruence. destruct st; congruence. }
    assert (L1 : loc r (st_log q') = PPush c). { rewrite E, loc_cons. cbn [about]. rewrite Nat.eqb_refl, L0. reflexivity. }
    assert (Lo : forall r', r' <> r -> loc r' (st_log q') = loc r' (st_log (g_q s d))).
    { intros r' N. rewrite E, loc_cons. cbn [about]. apply Nat.eqb_neq in N. rewrite N. auto. }
    assert (Fr : forall e, In e (AsyncModel.s_fly x) -> AsyncModel.e_id e <> number d r).
    { intros e I Q. destruct (V9 e I) as (d' & r' & X1 & _ & X3 & _). rewrite Q in X1. apply number_inj in X1.
      destruct X1 as (<- & <-). rewrite L0 in X3. destruct X3. }
    pose proof (AsyncModel.SPost x c (number d r) a Fr) as St.
    match type of St with AsyncModel.step _ _ ?y => exists y end.
    assert (Ev : views (t ++ [HPost d c r a]) = views t ++ [AsyncModel.Post c (number d r) a]).
    { unfold views. rewrite flat_map_app. reflexivity. }
    constructor; cbn [g_q g_par g_todo g_val AsyncModel.s_val AsyncModel.s_fly]; rewrite ?Ev; auto.
    + apply reach_put; auto.
    + intros d' e I. apply in_snoc in I. destruct I as [I|I]; [|discriminate]. eapply (log_put s d q' [ECreate c r]); eauto.
    + intros d' c' r' a'. rewrite in_snoc, V3. unfold put at 1. destruct (Nat.eqb_spec d' d) as [Q|D].
      * subst d'. unfold put. destruct (Nat.eqb_spec r' r) as [Q|D].
        -- subst r'. apply V4 in L0. rewrite L0. split; [intros [X|X]; congruence|]. intros X. inversion X. auto.
        -- split; [intros [X|X]; congruence|auto].
      * split; [intros [X|X]; congruence|auto].
    + intros d' r'. unfold put. destruct (Nat.eqb_spec d' d) as [Q|D]; auto. subst d'.
      destruct (Nat.eqb_spec r' r) as [Q|D]; [subst r'; rewrite L1; split; discriminate|]. rewrite Lo by auto. apply V4.
    + eapply run_app; eauto. apply run_one. exact St.
    + rewrite map_app. cbn. apply AsyncProofs.NoDup_snoc; auto. intros I. apply in_map_iff in I. destruct I as (e & I1 & I2).
      apply (Fr e I2 I1).
    + eapply pend_snoc; eauto. unfold AsyncProofs.pend. cbn [AsyncModel.s_fly AsyncSpec.after]. rewrite map_app. reflexivity.
    + intros e I. apply in_snoc in I. destruct I as [I|I].
      * destruct (V9 e I) as (d' & r' & X1 & X2 & X3 & X4). exists d', r'. unfold fits. cbn [g_q g_par g_todo]. unfold put.
        destruct (Nat.eqb_spec d' d) as [Q|D]; [|csplit; auto]. subst d'.
        assert (M : r' <> r). { intros ->. apply (Fr e I X1). }
        rewrite Lo by auto. apply Nat.eqb_neq in M. rewrite M. csplit; auto.
      * subst e. exists d, r. unfold fits. cbn [g_q g_par g_todo AsyncModel.e_id AsyncModel.e_client AsyncModel.e_req AsyncModel.e_todo AsyncModel.e_started].
        rewrite !put_same, L1. csplit; auto. exact Logic.I.
    + intros d' r' C. unfold put in C.
      assert (K : (d' = d /\ r' = r) \/ flying (loc r' (st_log (g_q s d')))).
      { destruct (Nat.eqb_spec d' d) as [Q|D]; auto. subst d'. destruct (Nat.eq_dec r' r) as [Q|M]; auto.
        right. rewrite Lo in C by auto. auto. }
      destruct K as [(-> & ->)|K].
      * eexists. split; [apply in_snoc; right; reflexivity|]. reflexivity.
      * destruct (V10 d' r' K) as (e & I & Q). exists e. split; auto. apply in_snoc. auto.
  - (* pop *)
    destruct V as [V1 V2 V3 V4 V5 V6 V7 V8 V9 V10].
    pose proof (reach_put s d q' V1 T d) as R'. rewrite put_same in R'.
    pose proof (good_reach _ _ _ r R') as G. rewrite E, loc_cons in G.
    cbn [about] in G. rewrite Nat.eqb_refl in G.
    assert (L0 : loc r (st_log (g_q s d)) = PQueued).
    { destruct (loc r (st_log (g_q s d))) as [|c0| | |c0|o0 st|o0|]; cbn in G; try congruence. destruct st; congruence. }
    assert (L1 : loc r (st_log q') = PServe). { rewrite E, loc_cons. cbn [about]. rewrite Nat.eqb_refl, L0. reflexivity. }
    assert (Lo : forall r', r' <> r -> loc r' (st_log q') = loc r' (st_log (g_q s d))).
    { intros r' N. rewrite E, loc_cons. cbn [about]. apply Nat.eqb_neq in N. rewrite N. auto. }
    assert (U : forall r', r' <> r -> loc r' (st_log (g_q s d)) <> PServe).
    { intros r' N X. rewrite <- Lo in X by auto. apply (serving _ _ _ _ R') in X. apply (serving _ _ _ _ R') in L1. congruence. }
    exists x. assert (Ev : views (t ++ [HQueue d (EPop r)]) = views t).
    { unfold views. rewrite flat_map_app. cbn. apply app_nil_r. }
    constructor; cbn [g_q g_par g_todo g_val]; rewrite ?Ev; auto.
    + apply reach_put; auto.
    + intros d' e I. apply in_snoc in I. destruct I as [I|I]; [eapply (log_put s d q' [EPop r]); eauto|].
      inversion I; subst. rewrite put_same, E. left; auto.
    + intros d' c' r' a'. rewrite in_snoc, V3. split; auto. intros [X|X]; auto. discriminate.
    + intros d' r'. rewrite V4. unfold put. destruct (Nat.eqb_spec d' d) as [Q|D]; [|tauto]. subst d'.
      destruct (Nat.eq_dec r' r) as [Q|M]; [subst r'; rewrite L0, L1; split; discriminate|]. rewrite Lo by auto. tauto.
    + intros e I. destruct (V9 e I) as (d' & r' & X1 & X2 & X3 & X4). exists d', r'. unfold fits. cbn [g_q g_par g_todo]. unfold put.
      destruct (Nat.eqb_spec d' d) as [Q|D]; [|csplit; auto]. subst d'. destruct (Nat.eq_dec r' r) as [Q|M].
      * subst r'. rewrite L1. rewrite L0 in X4. rewrite P in X2. inversion X2; subst. csplit; auto; [exact Logic.I|apply X4].
      * rewrite Lo by auto. specialize (U r' M). csplit; auto. destruct (loc r' (st_log (g_q s d))); auto. congruence.
    + intros d' r' C. unfold put in C. destruct (Nat.eqb_spec d' d) as [Q|D]; auto. subst d'.
      destruct (Nat.eq_dec r' r) as [Q|M]; [subst r'; apply V10; rewrite L0; exact Logic.I|]. rewrite Lo in C by auto. auto.
  - (* a byte *)
    destruct V as [V1 V2 V3 V4 V5 V6 V7 V8 V9 V10]. rewrite app_nil_r.
    assert (L0 : loc r (st_log (g_q s d)) = PServe) by (apply (serving _ _ _ _ (V1 d)); auto).
    destruct (V10 d r) as (e & Ie & Eid); [rewrite L0; exact Logic.I|].
    destruct (V9 e Ie) as (d' & r' & X1 & X2 & X3 & X4). rewrite Eid in X1. apply number_inj in X1. destruct X1 as (<- & <-).
    rewrite P in X2. inversion X2; subst c a. rewrite L0 in X4.
    destruct (in_split _ _ Ie) as (l1 & l2 & Fl).
    pose proof (AsyncModel.SMove x l1 e l2 k Fl Hk) as St.
    match type of St with AsyncModel.step _ _ ?y => exists y end.
    rewrite Fl in V7.
    constructor; cbn [g_q g_par g_todo g_val AsyncModel.s_val AsyncModel.s_fly]; auto.
    + rewrite <- (app_nil_r (views t)). eapply run_app; eauto. eapply AsyncModel.RSilent; [exact St|]. constructor.
    + rewrite V6. auto.
    + rewrite map_app in *. exact V7.
    + rewrite <- V8. unfold AsyncProofs.pend. cbn [AsyncModel.s_fly]. rewrite Fl, !map_app. reflexivity.
    + intros e' I. apply in_app_iff in I.
      assert (K : e' = AsyncModel.MkE (AsyncModel.e_client e) (AsyncModel.e_id e) (AsyncModel.e_req e)
        (filter (fun j => negb (Z.eqb j k)) (AsyncModel.e_todo e)) true \/ In e' (l1 ++ l2)).
      { rewrite in_app_iff. cbn in I. intuition. }
      destruct K as [K|K].
      * exists d, r. subst e'. unfold fits. cbn [g_q g_par g_todo AsyncModel.e_id AsyncModel.e_client AsyncModel.e_req AsyncModel.e_todo AsyncModel.e_started].
        rewrite L0, put_same, X4. csplit; auto. exact Logic.I.
      * destruct (V9 e') as (d' & r' & Y1 & Y2 & Y3 & Y4).
        { rewrite Fl. apply in_app_iff in K. apply in_app_iff. cbn. tauto. }
        exists d', r'. unfold fits. cbn [g_q g_par g_todo]. csplit; auto. unfold put.
        destruct (Nat.eqb_spec d' d) as [Q|D]; auto. subst d'.
        destruct (loc r' (st_log (g_q s d))) eqn:Lr; auto. exfalso.
        apply (serving _ _ _ _ (V1 d)) in Lr. assert (r' = r) by congruence. subst r'.
        destruct (remove_ids _ _ _ V7) as (_ & N2). apply (N2 e' K). congruence.
    + intros d' r' C. destruct (V10 d' r' C) as (e' & I & Q). rewrite Fl in I. apply in_app_iff in I.
      destruct I as [I|[I|I]].
      * exists e'. split; auto. apply in_app_iff. auto.
      * subst e'. eexists. split; [apply in_app_iff; right; left; reflexivity|]. exact Q.
      * exists e'. split; auto. apply in_app_iff. right. right. auto.
  - (* the transfer ends *)
    pose proof (v_reach _ _ _ _ _ _ V) as V1.
    pose proof (reach_put s d q' V1 T d) as R'. rewrite put_same in R'.
    pose proof (good_reach _ _ _ r R') as G. rewrite E, loc_cons in G.
    cbn [about] in G. rewrite Nat.eqb_refl in G.
    assert (L0 : loc r (st_log (g_q s d)) = PServe).
    { destruct (loc r (st_log (g_q s d))) as [|c0| | |c0|o0 st|o0|]; cbn in G; try congruence. destruct st; congruence. }
    assert (L1 : loc r (st_log q') = PFin None SDone). { rewrite E, loc_cons. cbn [about]. rewrite Nat.eqb_refl, L0. reflexivity. }
    destruct ok.
    + eapply (inv_leave t s x d q' (EServe r true) r c a _ (AsyncModel.Done c (number d r))); eauto; try reflexivity; try discriminate.
      * cbn. apply Nat.eqb_refl.
      * intros r' H. cbn in H. apply Nat.eqb_eq in H. auto.
      * rewrite L0. exact Logic.I.
      * rewrite L1. intros X; exact X.
      * rewrite L1. discriminate.
      * intros l1 e l2 Fl Fe. destruct Fe as (X1 & X2 & X3 & X4). rewrite L0 in X4. rewrite P in X2. inversion X2; subst.
        rewrite <- X1. apply AsyncModel.SDone; auto. rewrite X4. auto.
    + eapply (inv_leave t s x d q' (EServe r false) r c a _ (AsyncModel.Fail c (number d r))); eauto; try reflexivity; try discriminate.
      * cbn. apply Nat.eqb_refl.
      * intros r' H. cbn in H. apply Nat.eqb_eq in H. auto.
      * rewrite L0. exact Logic.I.
      * rewrite L1. intros X; exact X.
      * rewrite L1. discriminate.
      * intros l1 e l2 Fl Fe. destruct Fe as (X1 & X2 & X3 & X4). rewrite L0 in X4. rewrite P in X2. inversion X2; subst.
        rewrite <- X1. apply AsyncModel.SFail; auto.
  - (* removed *)
    pose proof (v_reach _ _ _ _ _ _ V) as V1.
    pose proof (reach_put s d q' V1 T d) as R'. rewrite put_same in R'.
    pose proof (good_reach _ _ _ r R') as G. rewrite E, loc_cons in G.
    cbn [about] in G. rewrite Nat.eqb_refl in G.
    assert (L0 : loc r (st_log (g_q s d)) = PQueued).
    { destruct (loc r (st_log (g_q s d))) as [|c0| | |c0|o0 st|o0|]; cbn in G; try congruence. destruct st; congruence. }
    assert (L1 : loc r (st_log q') = PTake c'). { rewrite E, loc_cons. cbn [about]. rewrite Nat.eqb_refl, L0. reflexivity. }
    eapply (inv_leave t s x d q' (EErase c' r) r c a _ (AsyncModel.Cancel c (number d r))); eauto; try reflexivity; try discriminate.
    + cbn. apply Nat.eqb_refl.
    + intros r' H. cbn in H. apply Nat.eqb_eq in H. auto.
    + rewrite L0. exact Logic.I.
    + rewrite L1. intros X; exact X.
    + rewrite L1. discriminate.
    + intros l1 e l2 Fl Fe. destruct Fe as (X1 & X2 & X3 & X4). rewrite L0 in X4. rewrite P in X2. inversion X2; subst.
      rewrite <- X1. apply AsyncModel.SCancel; auto. apply X4.
  - (* anything else *)
    exists x. pose proof (v_reach _ _ _ _ _ _ V) as V1.
    pose proof (reach_put s d q' V1 T d) as R'. rewrite put_same in R'.
    assert (G : forall r, about r e = true -> adv e (loc r (st_log (g_q s d))) <> PBad).
    { intros r A. pose proof (good_reach _ _ _ r R') as G. rewrite E, loc_cons, A in G. exact G. }
    eapply (inv_same t s x d q' [e] [HQueue d e]); eauto.
    + intros r. rewrite E, loc_cons. destruct (about r e) eqn:A; [|tauto].
      destruct (plain_flying e _ Pl (G r A)) as (_ & _ & X & Y). tauto.
    + intros r. rewrite E, loc_cons. destruct (about r e) eqn:A; [|tauto].
      destruct (plain_flying e _ Pl (G r A)) as (X & _). tauto.
    + intros r. rewrite E, loc_cons. destruct (about r e) eqn:A; [|tauto].
      destruct (plain_flying e _ Pl (G r A)) as (X & Y & _). tauto.
    + right. exists e. split; auto. rewrite E. left; auto.
  - (* poke *)
    destruct V as [V1 V2 V3 V4 V5 V6 V7 V8 V9 V10].
    exists (AsyncModel.MkS (AsyncModel.upd (AsyncModel.s_val x) (AsyncModel.Mem a) v) (AsyncModel.s_fly x)).
    assert (Ev : views (t ++ [HPoke c a v]) = views t ++ [AsyncModel.Poke c a v]) by (unfold views; rewrite flat_map_app; reflexivity).
    constructor; cbn [g_q g_par g_todo g_val AsyncModel.s_val AsyncModel.s_fly]; rewrite ?Ev; auto.
    + intros d e I. apply in_snoc in I. destruct I as [I|I]; [auto|discriminate].
    + intros d c' r a'. rewrite in_snoc, V3. split; auto. intros [X|X]; auto. discriminate.
    + eapply run_app; eauto. apply run_one. constructor.
    + rewrite V6. auto.
    + eapply pend_snoc; eauto.
  - (* peek *)
    destruct V as [V1 V2 V3 V4 V5 V6 V7 V8 V9 V10].
    exists x.
    assert (Ev : views (t ++ [HPeek c a (g_val s (AsyncModel.Mem a))]) = views t ++ [AsyncModel.Peek c a (g_val s (AsyncModel.Mem a))])
      by (unfold views; rewrite flat_map_app; reflexivity).
    constructor; rewrite ?Ev; auto.
    + intros d e I. apply in_snoc in I. destruct I as [I|I]; [auto|discriminate].
    + intros d c' r a'. rewrite in_snoc, V3. split; auto. intros [X|X]; auto. discriminate.
    + eapply run_app; eauto. apply run_one. rewrite <- V6. constructor.
    + eapply pend_snoc; eauto.
Qed.

Lemma inv_history : forall t s, history ks (begin n w) t s -> exists x, inv ks n w t s x.
Proof.
  intros t s H. induction H as [|t s s' H IH St|t s h s' H IH St].
  - eexists. apply inv_begin.
  - destruct IH as (x & V). destruct (inv_step _ _ _ _ _ V St) as (x' & V'). rewrite app_nil_r in V'. eauto.
  - destruct IH as (x & V). destruct (inv_step _ _ _ _ _ V St) as (x' & V'). eauto.
Qed.

End Step.
