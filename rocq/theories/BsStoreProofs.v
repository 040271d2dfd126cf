(** The block scheduler on the block store: the invariant. *)

From Coq Require Import ZArith List Bool Arith Lia Permutation.
From Verif Require ManagerModel.
From Verif Require Import StoreModel StoreSpec StoreProofs StoreProofs2 TogetherStore BsStoreDisk.
From Verif Require Import BsModel BsSpec BsProofs BsProofs2 BsProofs3 BsProofs4 BsProofs5.
From Verif Require Import BsStoreModel BsStoreSpec BsStoreActs.
Import ListNotations.

Lemma combine_split_tr : forall {A B} (tr : list (A * B)), combine (map fst tr) (map snd tr) = tr.
Proof. induction tr as [|[a b] tr IH]; cbn; congruence. Qed.

Section Inv.
Variable pick : nat -> list nat -> nat.
Variable dflt : option Z.
Variables (size : Z) (enc : Z -> list Z) (dec : list (option Z) -> Z) (pl : nat -> ManagerModel.bid).
Hypothesis Fresh : fresh_blocks pick.
Hypothesis Hst : stores size enc dec pl.
Variables (cfgs : list (Z * bool)) (ba : nat) (s00 t0 : store) (older : list event).
Let n := length cfgs.
Hypothesis Hba : 1 <= ba.
Hypothesis Hopen : sinv cfgs [] s00.
Hypothesis Hold : shistory true n ba s00 older t0.
Variables (max : nat) (m d0 : nat -> Z).

Lemma pl_inj : forall e e', pl e = pl e' -> e = e'.
Proof. exact (proj1 Hst). Qed.

Lemma run_snoc : forall ops s s1 rs o s2 r, run pick dflt s ops = Ok (s1, rs) -> do pick dflt s1 o = Ok (s2, r) ->
  run pick dflt s (ops ++ [o]) = Ok (s2, rs ++ [r]).
Proof.
  induction ops as [|o1 ops IH]; intros s s1 rs o s2 r E D; cbn [run app] in *.
  - inversion E; subst. rewrite D. reflexivity.
  - destruct (do pick dflt s o1) as [(s3, x)| |]; cbn [bind] in *; try discriminate.
    destruct (run pick dflt s3 ops) as [(s4, xs)| |] eqn:Er; cbn [bind] in *; try discriminate.
    inversion E; subst. rewrite (IH _ _ _ _ _ _ Er D). reflexivity.
Qed.

Record bok (evs : list event) (t : store) (w rd B T : list nat) (dv : nat -> Z) (e : nat) : Prop := mk_bok {
  b_hold : In (pl e) (hold t);
  b_exp : ~ In e B -> expected (evs ++ older) (pl e) = Some (enc (dv e));
  b_pend : forall r, In r (st_pending t) -> rq_bid r = pl e ->
    In e T /\ (rq_data r <> None -> In e w) /\ (rq_data r = None -> In e rd);
  b_cnt : cnt (pl e) (st_pending t) <= 1;
  b_w : In e w -> exists r, In r (st_pending t) /\ rq_bid r = pl e /\ rq_data r <> None;
  b_r : In e rd -> exists r, In r (st_pending t) /\ rq_bid r = pl e /\ rq_data r = None
}.

Record Inv (k : conf) (ss : st) (B T : list nat) (dn : list act) : Prop := mk_Inv {
  I_st : k_s k = with_disk ss (disk (k_s k));
  I_run : run pick dflt (start max m d0) (map fst (k_tr k)) = Ok (ss, map snd (k_tr k));
  I_R : R max [] [] ss (client_of k);
  I_us : k_us k = us_after dn (used ss);
  I_valid : valid (k_us k) B T (k_todo k);
  I_acts : match k_op k with
           | Some o => acts pick ss o = dn ++ k_todo k
           | None => dn = [] /\ k_todo k = [] /\ T = [] /\ k_w k = [] /\ k_rd k = [] /\ k_got k = []
           end;
  I_T : forall e, In e T -> In e (k_us k);
  I_w : forall e, In e (k_w k) -> In e T;
  I_rd : forall e, In e (k_rd k) -> In e T /\ ~ In e B;
  I_reads : forall e, In (ARead e) dn -> In e (k_rd k) \/ exists data, In (e, data) (k_got k);
  I_got : forall e data, In (e, data) (k_got k) -> In e T /\ ~ In e B /\ data = map Some (enc (wr dn (disk ss) e));
  I_hist : shistory true n ba s00 (k_evs k ++ older) (k_t k);
  I_blk : forall e, In e (k_us k) -> bok (k_evs k) (k_t k) (k_w k) (k_rd k) B T (wr dn (disk ss)) e
}.

Lemma inv_start : Inv (begins max m d0 t0) (start max m d0) [] [] [].
Proof.
  constructor; cbn; auto; try tauto.
  - apply R_start.
Qed.

(** A block that the step leaves alone. *)
Lemma bok_keep : forall evs t w rd B T dv e o t' ev w' rd' B' T' dv',
  shistory true n ba s00 (evs ++ older) t -> StoreSpec.allowed n t o ->
  store_step ba t o = Some (t', ev) -> not_at (pl e) t o ->
  (In e w <-> In e w') -> (In e rd <-> In e rd') -> (In e B -> In e B') -> (In e T -> In e T') -> dv' e = dv e ->
  bok evs t w rd B T dv e -> bok (ev :: evs) t' w' rd' B' T' dv' e.
Proof.
  intros evs t w rd B T dv e o t' ev w' rd' B' T' dv' H A St N Hw Hr HB HT Hd [K1 K2 K3 K4 K5 K6].
  pose proof (history_sinv _ _ _ _ _ Hba Hopen H) as V.
  destruct (left_alone _ _ _ _ _ _ _ _ V (fun _ _ _ _ _ => A) St N K1) as (L1 & L2 & L3 & L4).
  constructor; auto.
  - intros Q. cbn [app]. rewrite L2, Hd. apply K2. auto.
  - intros r Q E. apply (L3 r E) in Q. destruct (K3 r Q E) as (X1 & X2 & X3). tauto.
  - rewrite L4. auto.
  - intros Q. apply Hw in Q. destruct (K5 Q) as (r & Y1 & Y2 & Y3). exists r. split; [apply (L3 r Y2)|]; auto.
  - intros Q. apply Hr in Q. destruct (K6 Q) as (r & Y1 & Y2 & Y3). exists r. split; [apply (L3 r Y2)|]; auto.
Qed.

Lemma step_inv : forall k k' ss B T dn, Inv k ss B T dn -> jstep pick dflt enc dec pl n ba k k' -> proper k' ->
  exists ss' B' T' dn', Inv k' ss' B' T' dn'.
Proof.
  intros k k' ss B T dn V St P.
  destruct V as [V1 V2 V3 V4 V5 V6 V7 V8 V9 V10 V11 V12 V13].
  inversion St; subst; cbn [k_tr k_s k_op k_us k_todo k_w k_rd k_got k_evs k_t] in *.
  - (* call *)
    destruct V6 as (-> & _ & -> & _ & _ & _). destruct P as (_ & L). cbn [k_op k_tr] in L.
    assert (E : acts pick s o = acts pick ss o) by (rewrite V1; apply acts_disk).
    exists ss, [], [], []. cbn in V5. subst B. constructor; cbn [k_tr k_s k_op k_us k_todo k_w k_rd k_got k_evs k_t]; auto.
    + rewrite V4, E. cbn [us_after]. eapply acts_valid; eauto.
  - (* others *)
    exists ss, B, T, dn. constructor; cbn [k_tr k_s k_op k_us k_todo k_w k_rd k_got k_evs k_t]; auto.
    + cbn [app]. eapply sh_step; eauto.
    + intros x Hx. eapply bok_keep; try exact (V13 x Hx); eauto; try reflexivity.
      destruct o; cbn [elsewhere not_at] in *; auto; intros y Hy; eapply H0; eauto.
  - (* new *)
    destruct H as (tsize & f & off & sizes & ->).
    pose proof (history_sinv _ _ _ _ _ Hba Hopen V12) as V.
    destruct (new_facts _ _ _ _ _ _ _ _ _ _ V H0 H1) as (Ep & got' & Eg & Eh & Ng). inversion Eg; subst got'. clear Eg.
    destruct V5 as (N & V5).
    assert (Keep : forall e, In e us -> e <> x) by (intros e Q ->; auto).
    exists ss, (x :: B), T, (dn ++ [ANew x]). constructor; cbn [k_tr k_s k_op k_us k_todo k_w k_rd k_got k_evs k_t]; auto.
    + rewrite us_app, <- V4. reflexivity.
    + destruct c; [rewrite <- app_assoc; exact V6|]. destruct V6 as (_ & Q & _); discriminate.
    + intros e Q. right; auto.
    + intros e Q. destruct (V9 e Q) as (A1 & A2). split; auto. intros [<-|Z]; auto.
    + intros e Q. apply in_app_or in Q. destruct Q as [Q|[Q|[]]]; [|discriminate]. apply V10; auto.
    + intros e data Q. destruct (V11 e data Q) as (A1 & A2 & ->). split; auto. rewrite wr_app. cbn [wr]. split; auto.
      intros [<-|Z]; auto.
    + cbn [app]. eapply sh_step; eauto.
    + intros e [<-|Q].
      * constructor.
        -- rewrite Eh. apply in_or_app. right. left; auto.
        -- intros Z. exfalso. apply Z. left; auto.
        -- intros r Hr E. exfalso. rewrite Ep in Hr. destruct (si_pend _ _ _ V r Hr) as (Z & _).
           apply (Ng _ Z). rewrite E. left; auto.
        -- rewrite Ep, cnt_none; auto. intros r Hr E. destruct (si_pend _ _ _ V r Hr) as (Z & _).
           apply (Ng _ Z). rewrite E. left; auto.
        -- intros Q. exfalso. apply N; auto.
        -- intros Q. exfalso. apply N, V7. apply V9; auto.
      * rewrite wr_app. cbn [wr]. eapply bok_keep; try exact (V13 e Q); eauto; try reflexivity; cbn; auto.
  - (* delete *)
    destruct V5 as (Hx & NT & V5).
    assert (A : StoreSpec.allowed n t (SDelete os h)).
    { exists (pl x). split; auto. intros r Hr E. destruct (b_pend _ _ _ _ _ _ _ _ (V13 x Hx) r Hr E). auto. }
    exists ss, B, T, (dn ++ [ADel x]). constructor; cbn [k_tr k_s k_op k_us k_todo k_w k_rd k_got k_evs k_t]; auto.
    + rewrite us_app, <- V4. reflexivity.
    + destruct c; [rewrite <- app_assoc; exact V6|]. destruct V6 as (_ & Q & _); discriminate.
    + intros y Q. apply in_in_remove; auto. intros ->; auto.
    + intros y Q. apply in_app_or in Q. destruct Q as [Q|[Q|[]]]; [|discriminate]. apply V10; auto.
    + intros y data Q. rewrite wr_app. apply V11; auto.
    + cbn [app]. eapply sh_step; eauto.
    + intros y Q. apply List.in_remove in Q. destruct Q as (Q & N). rewrite wr_app. cbn [wr].
      eapply bok_keep; try exact (V13 y Q); eauto; try reflexivity. cbn. intros b' Hb ->. unfold hold in Hb. rewrite H in Hb.
      inversion Hb. apply pl_inj in H2. auto.
  - (* write *)
    destruct V5 as (Hx & NT & V5).
    assert (Np : forall r, In r (st_pending t) -> rq_bid r <> pl x).
    { intros r Hr E. destruct (b_pend _ _ _ _ _ _ _ _ (V13 x Hx) r Hr E). auto. }
    assert (A : StoreSpec.allowed n t (SWrite h (enc v))).
    { exists (pl x). split; auto. split; auto. destruct Hst as (_ & S1 & S2). rewrite S1. apply S2. }
    destruct (write_facts _ _ _ _ _ _ H0) as (b & Eb & -> & Eh & Ep).
    unfold hold in Eb. rewrite H in Eb. inversion Eb; subst b. clear Eb.
    exists ss, (remove Nat.eq_dec x B), (x :: T), (dn ++ [AWrite x v]).
    constructor; cbn [k_tr k_s k_op k_us k_todo k_w k_rd k_got k_evs k_t]; auto.
    + rewrite us_app, <- V4. reflexivity.
    + destruct c; [rewrite <- app_assoc; exact V6|]. destruct V6 as (_ & Q & _); discriminate.
    + intros y [<-|Q]; auto.
    + intros y [<-|Q]; [left; auto|right; auto].
    + intros y Q. destruct (V9 y Q) as (A1 & A2). split; [right; auto|]. intros Z. apply List.in_remove in Z. tauto.
    + intros y Q. apply in_app_or in Q. destruct Q as [Q|[Q|[]]]; [|discriminate]. apply V10; auto.
    + intros y data Q. destruct (V11 y data Q) as (A1 & A2 & ->). split; [right; auto|]. split.
      * intros Z. apply List.in_remove in Z. tauto.
      * rewrite wr_app. cbn [wr]. rewrite upd_other; auto. intros ->; auto.
    + cbn [app]. eapply sh_step; eauto.
    + intros y Q. rewrite wr_app. cbn [wr]. destruct (Nat.eq_dec y x) as [->|N].
      * constructor.
        -- rewrite Eh. apply nth_error_In in H. exact H.
        -- intros _. cbn [app expected]. rewrite bid_eqb_refl, upd_same. reflexivity.
        -- intros r Hr E. rewrite Ep in Hr. apply in_app_or in Hr. destruct Hr as [Hr|[<-|[]]].
           ++ exfalso. eapply Np; eauto.
           ++ cbn. split; [auto|]. split; [auto|discriminate].
        -- rewrite Ep, cnt_snoc, cnt_none by auto. destruct (StoreSpec.bid_eqb _ _); lia.
        -- intros _. exists (mk_rq (pl x) (Some (enc v))). rewrite Ep. split; [apply in_or_app; right; left; auto|].
           split; [auto|discriminate].
        -- intros Z. exfalso. apply NT. apply V9; auto.
      * eapply bok_keep; try exact (V13 y Q); eauto; try reflexivity; cbn [not_at].
        -- intros b' Hb ->. unfold hold in Hb. rewrite H in Hb. inversion Hb. apply pl_inj in H2. auto.
        -- split; [right; auto|]. intros [Z|Z]; auto. congruence.
        -- intros Z. apply in_in_remove; auto.
        -- intros; right; auto.
        -- apply upd_other; auto.
  - (* written *)
    destruct (serve_facts _ _ _ _ _ _ H0) as (r & Er & Eh & Ep & Ed).
    assert (F : rq_bid r = pl x /\ rq_data r <> None).
    { destruct (rq_data r); destruct Ed as (y & Ed); inversion Ed; split; auto; discriminate. }
    destruct F as (F1 & F2). clear Ed.
    assert (A : StoreSpec.allowed n t (SServe a k0)) by (cbn; apply nth_error_Some; congruence).
    exists ss, B, T, dn. constructor; cbn [k_tr k_s k_op k_us k_todo k_w k_rd k_got k_evs k_t]; auto.
    + destruct c; auto. destruct V6 as (A1 & A2 & A3 & -> & A5 & A6). contradiction.
    + intros y Q. apply List.in_remove in Q. apply V8; tauto.
    + cbn [app]. eapply sh_step; eauto.
    + intros y Q. destruct (Nat.eq_dec y x) as [->|N].
      * destruct (V13 x Q) as [K1 K2 K3 K4 K5 K6]. pose proof (served_one _ _ _ _ _ _ _ _ H0 Er F1 K4) as So. constructor.
        -- rewrite Eh. auto.
        -- exact K2.
        -- intros r' Hr E. exfalso. eapply So; eauto.
        -- rewrite cnt_none; auto.
        -- intros Z. apply List.in_remove in Z. tauto.
        -- intros Z. destruct (K6 Z) as (r2 & Y1 & Y2 & Y3). exfalso. apply (So r2); auto.
           rewrite Ep. eapply remove_nth_in; eauto. intros ->. auto.
      * eapply bok_keep; try exact (V13 y Q); eauto; try reflexivity; cbn [not_at].
        -- intros r' Er' E. assert (r' = r) by congruence. subst. apply N, pl_inj. intuition congruence.
        -- split; [intros Z; apply in_in_remove; auto|intros Z; apply List.in_remove in Z; tauto].
  - (* read *)
    destruct V5 as (Hx & NB & NT & V5).
    assert (Np : forall r, In r (st_pending t) -> rq_bid r <> pl x).
    { intros r Hr E. destruct (b_pend _ _ _ _ _ _ _ _ (V13 x Hx) r Hr E). auto. }
    assert (A : StoreSpec.allowed n t (SRead h)).
    { exists (pl x). split; auto. }
    destruct (read_facts _ _ _ _ _ H0) as (b & Eb & -> & Eh & Ep).
    unfold hold in Eb. rewrite H in Eb. inversion Eb; subst b. clear Eb.
    exists ss, B, (x :: T), (dn ++ [ARead x]).
    constructor; cbn [k_tr k_s k_op k_us k_todo k_w k_rd k_got k_evs k_t]; auto.
    + rewrite us_app, <- V4. reflexivity.
    + destruct c; [rewrite <- app_assoc; exact V6|]. destruct V6 as (_ & Q & _); discriminate.
    + intros y [<-|Q]; auto.
    + intros y Q. right; auto.
    + intros y [<-|Q]; [split; auto; left; auto|]. destruct (V9 y Q) as (A1 & A2). split; [right; auto|]. auto.
    + intros y Q. apply in_app_or in Q. destruct Q as [Q|[Q|[]]].
      * destruct (V10 y Q) as [Z|Z]; [left; right; auto|right; auto].
      * inversion Q; subst. left; left; auto.
    + intros y data Q. destruct (V11 y data Q) as (A1 & A2 & ->). split; [right; auto|]. rewrite wr_app. auto.
    + cbn [app]. eapply sh_step; eauto.
    + intros y Q. rewrite wr_app. cbn [wr]. destruct (Nat.eq_dec y x) as [->|N].
      * destruct (V13 x Q) as [K1 K2 K3 K4 K5 K6]. constructor.
        -- rewrite Eh. auto.
        -- exact K2.
        -- intros r Hr E. rewrite Ep in Hr. apply in_app_or in Hr. destruct Hr as [Hr|[<-|[]]].
           ++ exfalso. eapply Np; eauto.
           ++ cbn. split; [auto|]. split; [congruence|auto].
        -- rewrite Ep, cnt_snoc, cnt_none by auto. destruct (StoreSpec.bid_eqb _ _); lia.
        -- intros Z. exfalso. apply NT. apply V8; auto.
        -- intros _. exists (mk_rq (pl x) None). rewrite Ep. split; [apply in_or_app; right; left; auto|]. auto.
      * eapply bok_keep; try exact (V13 y Q); eauto; try reflexivity; cbn [not_at].
        -- intros b' Hb ->. unfold hold in Hb. rewrite H in Hb. inversion Hb. apply pl_inj in H2. auto.
        -- split; [right; auto|]. intros [Z|Z]; auto. congruence.
        -- intros; right; auto.
  - (* read done *)
    destruct (serve_facts _ _ _ _ _ _ H0) as (r & Er & Eh & Ep & Ed).
    assert (F : rq_bid r = pl x /\ rq_data r = None).
    { destruct (rq_data r); destruct Ed as (y & Ed); inversion Ed; auto. }
    clear Ed.
    assert (A : StoreSpec.allowed n t (SServe a k0)) by (cbn; apply nth_error_Some; congruence).
    destruct (V9 x H) as (Tx & Bx). pose proof (V7 x Tx) as Hx.
    assert (D : data = map Some (enc (wr dn (disk ss) x))).
    { eapply (history_read ba cfgs s00 [] (pl x) data); auto.
      - cbn [app]. eapply sh_step; [exact V12| |exact H0]. auto.
      - exact (b_exp _ _ _ _ _ _ _ _ (V13 x Hx) Bx). }
    exists ss, B, T, dn. constructor; cbn [k_tr k_s k_op k_us k_todo k_w k_rd k_got k_evs k_t]; auto.
    + destruct c; auto. destruct V6 as (A1 & A2 & A3 & A4 & -> & A6). contradiction.
    + intros y Q. apply List.in_remove in Q. apply V9; tauto.
    + intros y Q. destruct (V10 y Q) as [Z|(d & Z)]; [|right; exists d; right; auto].
      destruct (Nat.eq_dec y x) as [->|N]; [right; exists data; left; auto|]. left. apply in_in_remove; auto.
    + intros y d [Q|Q]; [inversion Q; subst; auto|auto].
    + cbn [app]. eapply sh_step; eauto.
    + intros y Q. destruct (Nat.eq_dec y x) as [->|N].
      * destruct (V13 x Q) as [K1 K2 K3 K4 K5 K6]. pose proof (served_one _ _ _ _ _ _ _ _ H0 Er (proj1 F) K4) as So. constructor.
        -- rewrite Eh. auto.
        -- exact K2.
        -- intros r' Hr E. exfalso. eapply So; eauto.
        -- rewrite cnt_none; auto.
        -- intros Z. destruct (K5 Z) as (r2 & Y1 & Y2 & Y3). exfalso. apply (So r2); auto.
           rewrite Ep. eapply remove_nth_in; eauto. intros ->. tauto.
        -- intros Z. apply List.in_remove in Z. tauto.
      * eapply bok_keep; try exact (V13 y Q); eauto; try reflexivity; cbn [not_at].
        -- intros r' Er' E. assert (r' = r) by congruence. subst. apply N, pl_inj. intuition congruence.
        -- split; [intros Z; apply in_in_remove; auto|intros Z; apply List.in_remove in Z; tauto].
  - (* return *)
    destruct P as (L & _). cbn [k_tr] in L. apply legal_run_app in L. destruct L as (L1 & L2 & _).
    rewrite app_nil_r in V6. cbn in V5. subst B.
    pose proof (acts_valid pick Fresh max _ _ _ V3 L2) as Va.
    assert (Rd : forall e, In (ARead e) (acts pick ss o) -> d e = disk ss e).
    { intros e Q. rewrite V6 in Q. destruct (V10 e Q) as [[]|(data & Z)].
      rewrite (H e data Z). destruct (V11 e data Z) as (_ & _ & ->).
      destruct Hst as (_ & _ & S2). rewrite (proj2 (S2 _)).
      apply wr_not. rewrite <- V6 in Q |- *. eapply valid_read; eauto. }
    assert (E0 : with_disk s d = with_disk ss d) by (rewrite V1; apply with_with).
    rewrite E0, (do_disk pick dflt ss o d Rd) in H0.
    destruct (do pick dflt ss o) as [(ss', r')| |] eqn:D; cbn [mapo] in H0; try discriminate.
    unfold on1 in H0. cbn [fst snd] in H0. inversion H0; subst s' r'. clear H0.
    destruct (do_ok pick dflt Fresh max _ _ _ V3 L2) as [(s1 & r1 & D1 & _ & R1)|(b & un & _ & D1 & _)]; [|congruence].
    rewrite D in D1. inversion D1; subst s1 r1. clear D1.
    exists ss', [], [], []. constructor; cbn [k_tr k_s k_op k_us k_todo k_w k_rd k_got k_evs k_t]; auto.
    + rewrite !map_app. cbn [map fst snd]. eapply run_snoc; eauto.
    + unfold client_of. cbn [k_tr]. rewrite after_all_app. exact R1.
    + cbn [us_after]. rewrite V4, <- V6. symmetry. eapply do_used; eauto.
    + cbn. auto.
    + cbn. auto 10.
    + intros e data [].
    + intros e Q. cbn [wr]. destruct (V13 e Q) as [K1 K2 K3 K4 K5 K6]. constructor; auto.
      * rewrite (do_disk_same pick dflt _ _ _ _ D), V6. exact K2.
      * intros r' Hr E. destruct (K3 r' Hr E) as (_ & A1 & A2).
        destruct (rq_data r'); exfalso; [apply A1; discriminate|apply A2; auto].
Qed.

Lemma proper_before : forall k k', jstep pick dflt enc dec pl n ba k k' -> proper k' -> proper k.
Proof.
  intros k k' St (P1 & P2). inversion St; subst; unfold proper in *; cbn [k_tr k_op] in *; auto.
  - apply legal_run_app in P1. destruct P1 as (L1 & L2 & _). auto.
Qed.

Theorem run_inv : forall k, jrun pick dflt enc dec pl n ba (begins max m d0 t0) k -> proper k ->
  exists ss B T dn, Inv k ss B T dn.
Proof.
  intros k H. induction H as [|k k' H IH St]; intros P.
  - exists (start max m d0), [], [], []. apply inv_start.
  - destruct IH as (ss & B & T & dn & V); [eapply proper_before; eauto|]. eapply step_inv; eauto.
Qed.

End Inv.
