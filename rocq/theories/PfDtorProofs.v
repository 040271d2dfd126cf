(** Destroying the block scheduler while the prefetching algorithm is in use. *)
From Coq Require Import ZArith List Bool Lia Permutation Arith.
From Verif Require Import BsModel BsSpec BsProofs BsProofs2 BsProofs4 BsSpaceProofs BsDtorModel BsDtorProofs PfModel PfSpec PfInv PfProofs4 PfProofs12 PfProofs13 PfProofs14 PfSpaceProofs PfDtorModel.
Import ListNotations.

(** Blocks keep their external blocks. *)
Definition xs (p q : pst) : Prop := forall y, ext (B q y) = ext (B p y).
Lemma xs_refl p : xs p p.
Proof. intros y. reflexivity. Qed.
Lemma xs_trans p q r : xs p q -> xs q r -> xs p r.
Proof. intros H1 H2 y. rewrite H2. apply H1. Qed.

Ltac inj H := injection H as <-.
Ltac sm := intros ?y; reflexivity.

Lemma xs_start_read p b t q : start_read p b t = Ok q -> xs p q.
Proof.
  unfold start_read, with_meta, bk. destruct (int (B p b)) as [i|] eqn:Ei; [|discriminate]. destruct (ext (B p b)) eqn:Ee; [|discriminate].
  destruct (sched p t); [|discriminate]. intros E. inj E. destruct (dirty (B p b)); [|sm].
  intros y. cbn. unfold upd. destruct (Nat.eqb y b) eqn:Ey; [apply Nat.eqb_eq in Ey; subst y; cbn; congruence|reflexivity].
Qed.
Lemma xs_act p a q : do_act p a = Ok q -> xs p q.
Proof.
  destruct a; cbn [do_act].
  - destruct (wq p b) as [w|]; [|intros E; inj E; apply xs_refl]. destruct (w_ph w); intros E; inj E; sm.
  - destruct (wq p b) as [w|]; [|intros E; inj E; apply xs_refl]. destruct (w_ph w); intros E; inj E; sm.
  - destruct (wq p b) as [w|]; [|intros E; inj E; apply xs_refl]. destruct (w_ph w); intros E; inj E; sm.
  - destruct (wq p b) as [w|]; [|intros E; inj E; apply xs_refl]. destruct (w_ph w); try (intros E; inj E; sm).
    unfold w_over. destruct (w_taker w) as [t|]; [|discriminate].
    destruct (start_read p (w_start w) t) as [p1| |] eqn:E1; try discriminate. cbn [bind]. intros E. inj E.
    eapply xs_trans; [eapply xs_start_read; eassumption|sm].
  - destruct (rds p k) as [r|]; [|intros E; inj E; apply xs_refl]. destruct (r_done r); intros E; inj E; sm.
Qed.
Lemma xs_acts l : forall p q, do_acts p l = Ok q -> xs p q.
Proof.
  induction l as [|a l IH]; intros p q E; cbn [do_acts] in E; [inj E; apply xs_refl|].
  destruct (do_act p a) as [p1| |] eqn:E1; try discriminate. eapply xs_trans; [eapply xs_act; eassumption|eapply IH; eassumption].
Qed.
Lemma xs_env p q : env p = Ok q -> xs p q.
Proof.
  unfold env. destruct (orc p); intros E; [inj E; apply xs_refl|]. eapply xs_trans; [|eapply xs_acts; eassumption]. sm.
Qed.
Lemma xs_wait_entry p b q : wait_entry p b = Ok q -> xs p q.
Proof.
  unfold wait_entry, await_w. destruct (env p) as [p1| |] eqn:E1; try discriminate. cbn [bind]. destruct (do_acts p1 _) as [p2| |] eqn:E2; try discriminate.
  cbn [bind]. intros E. inj E. eapply xs_trans; [eapply xs_env; eassumption|]. eapply xs_trans; [eapply xs_acts; eassumption|sm].
Qed.
Lemma xs_wait_id p b q : wait_id p b = Ok q -> xs p q.
Proof. unfold wait_id. destruct (wq p b); intros E; [eapply xs_wait_entry; eassumption|inj E; apply xs_refl]. Qed.
Lemma xs_wait_giver p t q : wait_giver p t = Ok q -> xs p q.
Proof.
  unfold wait_giver, with_meta. destruct (sched p t) as [m|]; [|discriminate]. destruct (fst (m_giver m)); [|intros E; inj E; apply xs_refl].
  destruct (wait_id p _) as [p1| |] eqn:E1; try discriminate. cbn [bind]. destruct (sched p1 t); [|discriminate]. intros E. inj E.
  eapply xs_trans; [eapply xs_wait_id; eassumption|sm].
Qed.
Lemma xs_wait_on_read p t q : wait_on_read p t = Ok q -> xs p q.
Proof.
  unfold wait_on_read, with_meta. destruct (wait_giver p t) as [p1| |] eqn:E1; try discriminate. cbn [bind]. destruct (sched p1 t) as [m|]; [|discriminate].
  apply xs_wait_giver in E1. destruct (m_read m) as [k|]; [|intros E; inj E; assumption].
  unfold await_r. destruct (env p1) as [p2| |] eqn:E2; try discriminate. cbn [bind]. destruct (do_act p2 (RT k)) as [p3| |] eqn:E3; try discriminate. cbn [bind].
  destruct (sched p3 t); [|discriminate]. intros E. inj E. eapply xs_trans; [eassumption|]. eapply xs_trans; [eapply xs_env; eassumption|].
  eapply xs_trans; [eapply xs_act; eassumption|sm].
Qed.
Lemma xs_drain_sched l : forall p q, drain_sched p l = Ok q -> xs p q.
Proof.
  induction l as [|b l IH]; intros p q; cbn [drain_sched]; [intros E; inj E; apply xs_refl|]. destruct (sched p b); [|apply IH].
  destruct (wait_on_read p b) as [p1| |] eqn:E1; try discriminate. cbn [bind]. unfold with_meta. destruct (sched p1 b) as [m2|]; [|discriminate].
  intros E. apply IH in E. apply xs_wait_on_read in E1. eapply xs_trans; [exact E1|]. eapply xs_trans; [|exact E]. destruct (m_res m2); sm.
Qed.
Lemma xs_drain_w l : forall p q, drain_w p l = Ok q -> xs p q.
Proof.
  induction l as [|b l IH]; intros p q; cbn [drain_w]; [intros E; inj E; apply xs_refl|]. destruct (wait_id p b) as [p1| |] eqn:E1; try discriminate. cbn [bind].
  intros E. eapply xs_trans; [eapply xs_wait_id; exact E1|apply IH; exact E].
Qed.
Lemma xs_deinit p q : deinit p = Ok q -> xs p q.
Proof.
  unfold deinit. destruct (drain_sched _ _) as [p1| |] eqn:E1; try discriminate. cbn [bind]. intros E. apply xs_drain_sched in E1. apply xs_drain_w in E.
  eapply xs_trans; [|eapply xs_trans; [exact E1|exact E]]. sm.
Qed.

Lemma pf_dtor_ok max Q c p : Inv max [] Q c p -> exact (base p) c ->
  exists s1, pf_dtor max p = Ok (s1, Z.of_nat (length (acquired_blocks (base p)))) /\ NoDup (used s1) /\
  (forall e, In e (used s1) <-> own c e <> None \/ exists b, is_acquired (B p b) = true /\ ext (B p b) = Some e) /\
  (forall e x, own c e = Some x -> disk s1 e = x).
Proof.
  intros H X. destruct (to_lru_ok max Q c p H) as (s & E & HR & _ & Nb). unfold pf_to_lru in E.
  destruct (deinit p) as [q| |] eqn:Ed; try discriminate. cbn [bind] in E. injection E as E.
  assert (X1 : exact s c).
  { apply (exact_gr (base p) s c); [|auto|exact X]. rewrite <- E. eapply gr_trans; [exact (pg_deinit _ _ Ed)|]. apply gr_same; auto. }
  destruct (dtor_ok max s c HR X1) as (s1 & E1 & A1 & A2 & A3 & A4).
  assert (Acq : forall b, is_acquired (blk s b) = is_acquired (B p b)).
  { intros b. unfold is_acquired. rewrite (I_rc _ _ _ _ _ H b). destruct (live c b) eqn:El.
    - destruct (R_rel _ _ _ _ _ HR b El) as (K & _). rewrite K. reflexivity.
    - destruct (R_new _ _ _ _ _ HR b El) as (K1 & K2). rewrite K1, K2. reflexivity. }
  assert (Ext : forall b, ext (blk s b) = ext (B p b)) by (intros b; rewrite <- E; apply (xs_deinit _ _ Ed)).
  exists s1. split; [|split; [exact A1|split]].
  - unfold pf_dtor, pf_alg_dtor. rewrite Ed. cbn [bind]. rewrite E. unfold bs_dtor in E1. rewrite E1. do 4 f_equal.
    unfold acquired_blocks, those. rewrite Nb. apply filter_ext. exact Acq.
  - intros e. rewrite A2. split; (intros [K|(b & K1 & K2)]; [auto|right; exists b]); [rewrite <- Acq, <- Ext; auto|rewrite Acq, Ext; auto].
  - intros e x K. rewrite A3. apply (R_own _ _ _ _ _ HR e x K).
Qed.

Section Freed.
Variable pick : nat -> list nat -> nat.
Variable dflt : option Z.
Hypothesis Fresh : fresh_blocks pick.

Lemma pdeinit_freed p b q e : pdeinitialize pick p b = Ok q -> In e (used (base p)) -> In e (used (base q)) \/ ext (B p b) = Some e.
Proof.
  intros E He. destruct (pg_deinitialize pick Fresh _ _ _ E) as (p1 & (_ & _ & _ & G) & _ & K). rewrite K in G.
  destruct (ext (B p b)) as [x|]; [|auto]. destruct (Nat.eq_dec e x) as [->|n]; [auto|]. left. apply G. apply in_in_remove; assumption.
Qed.

Lemma freed_pdo p o q r e : pdo pick dflt p o = Ok (q, r) -> In e (used (base p)) -> (forall b, o <> Extract b) -> o <> Flush ->
  In e (used (base q)) \/ o = DelExt e \/ exists b, (o = Deinit b \/ o = Free b) /\ ext (B p b) = Some e.
Proof.
  intros E He N1 N2. unfold pdo in E. destruct (env p) as [p1| |] eqn:E0; try discriminate. cbn [bind] in E.
  pose proof (xs_env _ _ E0) as Ex. apply pg_env in E0. destruct E0 as (_ & _ & _ & G0). apply G0 in He. clear G0.
  destruct o; try discriminate.
  - destruct (pacquire dflt p1 b un) as [[p2 i]| |] eqn:E2; try discriminate. cbn [bind] in E. injection E as <- <-.
    destruct (pg_acquire dflt _ _ _ _ _ E2) as (_ & _ & _ & G). auto.
  - destruct (prelease pick p1 b d) as [p2| |] eqn:E2; try discriminate. cbn [bind] in E. injection E as <- <-.
    destruct (pg_release pick Fresh _ _ _ _ E2) as (_ & _ & _ & G). auto.
  - destruct (pdeinitialize pick p1 b) as [p2| |] eqn:E2; try discriminate. cbn [bind] in E. injection E as <- <-.
    destruct (pdeinit_freed _ _ _ e E2 He) as [K|K]; [auto|]. rewrite Ex in K. eauto 10.
  - destruct (pinitialize pick p1 b e0) as [p2| |] eqn:E2; try discriminate. cbn [bind] in E. injection E as <- <-.
    destruct (pg_initialize pick Fresh _ _ _ _ E2) as (p3 & (_ & _ & _ & G) & _ & K). rewrite K in G. auto.
  - exfalso. eapply N1. reflexivity.
  - destruct (negb _); [discriminate|]. injection E as <- <-. auto.
  - destruct (free_s (base p1)) as [|x l] eqn:Ef; [discriminate|]. unfold allocate in E. rewrite Ef in E. injection E as <- <-. auto.
  - destruct (pdeinitialize pick p1 b) as [p2| |] eqn:E2; try discriminate. cbn [bind] in E. injection E as <- <-.
    destruct (pdeinit_freed _ _ _ e E2 He) as [K|K]; [auto|]. rewrite Ex in K. eauto 10.
  - congruence.
  - injection E as <- <-. auto.
  - destruct (negb _); [discriminate|]. destruct (int (bk p1 b)); [|discriminate]. injection E as <- <-. auto.
  - destruct (negb _); [discriminate|]. destruct (int (bk p1 b)); [|discriminate]. injection E as <- <-. auto.
  - injection E as <- <-. left. right. exact He.
  - injection E as <- <-. auto.
  - injection E as <- <-. auto.
  - injection E as <- <-. destruct (Nat.eq_dec e e0) as [->|n]; [auto|]. left. cbn. apply in_in_remove; assumption.
Qed.
End Freed.
