(** Pools: structural invariant (who owns which buffer). *)

From Coq Require Import ZArith List Bool Lia Permutation.
From Verif Require Import PoolModel PoolSpec.
Import ListNotations.

Ltac csplit := repeat match goal with |- _ /\ _ => split end.

Lemma bid_eqb_eq : forall a b, bid_eqb a b = true <-> a = b.
Proof.
  intros [s o] [s' o']; unfold bid_eqb; cbn. rewrite andb_true_iff, Nat.eqb_eq, Z.eqb_eq.
  split; [intros (-> & ->); auto|intros H; inversion H; auto].
Qed.
Lemma bid_eqb_refl : forall a, bid_eqb a a = true.
Proof. intros; apply bid_eqb_eq; auto. Qed.
Lemma bid_eqb_neq : forall a b, bid_eqb a b = false <-> a <> b.
Proof. intros. rewrite <- bid_eqb_eq. destruct (bid_eqb a b); split; congruence. Qed.

(** ** Evolution of the requests *)

Definition st_le (a b : rstate) : Prop :=
  match a, b with
  | Finished, Finished => True
  | Finished, _ => False
  | Running, Pending => False
  | _, _ => True
  end.

Definition req_le (q q' : req) : Prop :=
  q_write q' = q_write q /\ q_buf q' = q_buf q /\ q_bid q' = q_bid q /\
  st_le (q_st q) (q_st q').

Definition evol (s s' : io) : Prop :=
  length (io_reqs s') = length (io_reqs s) /\
  forall i q, nth_error (io_reqs s) i = Some q ->
    exists q', nth_error (io_reqs s') i = Some q' /\ req_le q q'.

Lemma st_le_refl : forall a, st_le a a.
Proof. destruct a; cbn; auto. Qed.
Lemma st_le_trans : forall a b c, st_le a b -> st_le b c -> st_le a c.
Proof. destruct a, b, c; cbn; auto. Qed.

Lemma req_le_refl : forall q, req_le q q.
Proof. intros; unfold req_le; csplit; auto. apply st_le_refl. Qed.

Lemma evol_refl : forall s, evol s s.
Proof. intros; split; auto. intros i q H; exists q; split; auto. apply req_le_refl. Qed.

Lemma evol_trans : forall a b c, evol a b -> evol b c -> evol a c.
Proof.
  intros a b c (L1 & H1) (L2 & H2). split; [congruence|].
  intros i q H. destruct (H1 i q H) as (q1 & N1 & A1 & A2 & A3 & A4).
  destruct (H2 i q1 N1) as (q2 & N2 & B1 & B2 & B3 & B4).
  exists q2; split; auto. unfold req_le; csplit; try congruence.
  eapply st_le_trans; eauto.
Qed.

Lemma set_nth_length : forall l i q, length (set_nth i q l) = length l.
Proof. induction l; destruct i; cbn; auto. Qed.

Lemma set_nth_same : forall l i q q0,
  nth_error l i = Some q0 -> nth_error (set_nth i q l) i = Some q.
Proof. induction l; destruct i; cbn; intros; try discriminate; auto. eapply IHl; eauto. Qed.

Lemma set_nth_other : forall l i j q,
  i <> j -> nth_error (set_nth i q l) j = nth_error l j.
Proof. induction l; destruct i, j; cbn; intros; auto; congruence. Qed.

Lemma set_st_evol : forall s i q t,
  nth_error (io_reqs s) i = Some q -> st_le (q_st q) t -> evol s (set_st s i q t).
Proof.
  intros s i q t H L. split; cbn.
  - apply set_nth_length.
  - intros j q' N. destruct (Nat.eq_dec i j) as [<-|D].
    + rewrite (set_nth_same _ _ _ _ H). rewrite H in N; inversion N; subst.
      eexists; split; [reflexivity|]. unfold req_le; cbn; csplit; auto.
    + rewrite set_nth_other by auto. exists q'; split; auto. apply req_le_refl.
Qed.

Lemma evol_reqs : forall s s1 s2, io_reqs s1 = io_reqs s2 -> evol s s1 -> evol s s2.
Proof. intros s s1 s2 E H. unfold evol in *. rewrite <- E. exact H. Qed.

Lemma env1_evol : forall fifo s s', env1 fifo s s' -> evol s s'.
Proof.
  intros fifo s s' H; destruct H.
  - apply set_st_evol; auto. rewrite H0; cbn; auto.
  - apply evol_reqs with (s1 := set_st s i q Finished); [reflexivity|].
    apply set_st_evol; auto. rewrite H0; cbn; auto.
  - apply evol_reqs with (s1 := set_st s i q Finished); [reflexivity|].
    apply set_st_evol; auto. rewrite H0; cbn; auto.
Qed.

Lemma env_evol : forall fifo s s', env fifo s s' -> evol s s'.
Proof.
  intros fifo s s' H; induction H; [apply evol_refl|].
  eapply evol_trans; [eapply env1_evol; eauto|auto].
Qed.

Lemma env_trans : forall fifo a b c, env fifo a b -> env fifo b c -> env fifo a c.
Proof. intros fifo a b c H; induction H; intros; auto. econstructor; eauto. Qed.

Lemma cancel_evol : forall s i, evol s (cancel s i).
Proof.
  intros. unfold cancel. destruct (nth_error (io_reqs s) i) eqn:E; [|apply evol_refl].
  destruct (q_st r) eqn:F; try apply evol_refl.
  apply set_st_evol; auto. rewrite F; cbn; auto.
Qed.

Lemma evol_finished : forall s s' i, evol s s' -> finished s i = true -> finished s' i = true.
Proof.
  intros s s' i (_ & H) F. unfold finished in *.
  destruct (nth_error (io_reqs s) i) eqn:E; [|discriminate].
  destruct (H i r E) as (q' & N & _ & _ & _ & L). rewrite N.
  destruct (q_st r); try discriminate. destruct (q_st q'); cbn in L; auto; contradiction.
Qed.

Lemma evol_back : forall s s' i q', evol s s' -> nth_error (io_reqs s') i = Some q' ->
  exists q, nth_error (io_reqs s) i = Some q /\ req_le q q'.
Proof.
  intros s s' i q' (L & H) N.
  assert (i < length (io_reqs s))%nat.
  { rewrite <- L. apply nth_error_Some. congruence. }
  destruct (nth_error (io_reqs s) i) as [q|] eqn:E.
  - destruct (H i q E) as (q2 & N2 & R). rewrite N in N2. inversion N2; subst.
    exists q; auto.
  - apply nth_error_None in E. lia.
Qed.

Lemma finished_spec : forall s i, finished s i = true <->
  exists q, nth_error (io_reqs s) i = Some q /\ q_st q = Finished.
Proof.
  intros; unfold finished. destruct (nth_error (io_reqs s) i) as [q|].
  - destruct (q_st q) eqn:E; split; intros H; try discriminate; eauto;
      destruct H as (q0 & H1 & H2); inversion H1; subst; congruence.
  - split; intros H; [discriminate|]. destruct H as (q & H & _); discriminate.
Qed.

(** ** Structural invariant *)

Definition entry_of (p : ppool) (w : wpool) (i b : nat) : Prop :=
  (exists e, In e (w_busy w) /\ e_req e = i /\ e_buf e = b) \/
  (exists e, In e (p_busy p) /\ p_req e = i /\ p_buf e = b).

Record SI (p : ppool) (w : wpool) (s : io) (own : list nat) (al : list nat) : Prop := {
  si_nodup : NoDup (w_bufs w ++ p_bufs p ++ own);
  si_all : Permutation (w_bufs w ++ p_bufs p ++ own) al;
  si_fsize : p_fsize p = length (p_free p);
  si_keys : NoDup (map p_bid (p_busy p));
  si_unf : forall i q, nth_error (io_reqs s) i = Some q -> q_st q <> Finished ->
           entry_of p w i (q_buf q);
  si_w : forall e, In e (w_busy w) ->
         exists q, nth_error (io_reqs s) (e_req e) = Some q /\ q_write q = true /\
           q_buf q = e_buf e /\ (e_bid e = q_bid q \/ b_storage (e_bid e) = O);
  si_p : forall e, In e (p_busy p) ->
         exists q, nth_error (io_reqs s) (p_req e) = Some q /\
           q_buf q = p_buf e /\ q_bid q = p_bid e /\ b_storage (p_bid e) <> O }.

(** ** Permutations of buffer lists *)

Lemma perm_count : forall l1 l2 : list nat,
  (forall x, count_occ Nat.eq_dec l1 x = count_occ Nat.eq_dec l2 x) -> Permutation l1 l2.
Proof. intros; apply (Permutation_count_occ Nat.eq_dec); auto. Qed.

Lemma count_cons : forall (a x : nat) l,
  count_occ Nat.eq_dec (a :: l) x
  = ((if Nat.eq_dec a x then 1 else 0) + count_occ Nat.eq_dec l x)%nat.
Proof. intros; cbn. destruct (Nat.eq_dec a x); auto. Qed.

Ltac perm_norm :=
  repeat match goal with
  | H : Permutation _ _ |- _ =>
      let K := fresh "PC" in
      assert (K := proj1 (Permutation_count_occ Nat.eq_dec _ _) H); clear H
  end;
  apply perm_count; intro;
  repeat match goal with
  | K : forall x, count_occ Nat.eq_dec _ x = _ |- context [count_occ Nat.eq_dec _ ?y] =>
      specialize (K y)
  end;
  unfold w_bufs, p_bufs in *;
  cbn [w_free w_busy p_free p_busy p_buf e_buf map] in *;
  repeat (rewrite ?map_app, ?count_occ_app, ?count_cons, ?count_occ_nil in *;
          cbn [map e_buf p_buf] in *).
Ltac perm := perm_norm; lia.

Lemma SI_perm : forall p w s own al own',
  SI p w s own al -> Permutation own own' -> SI p w s own' al.
Proof.
  intros p w s own al own' [H1 H2 H3 H4 H5 H6 H7] P.
  assert (Q : Permutation (w_bufs w ++ p_bufs p ++ own) (w_bufs w ++ p_bufs p ++ own'))
    by (do 2 apply Permutation_app_head; auto).
  constructor; auto.
  - eapply Permutation_NoDup; eauto.
  - eapply Permutation_trans; [apply Permutation_sym|]; eauto.
Qed.

Lemma SI_evol : forall p w s own al s',
  SI p w s own al -> evol s s' -> SI p w s' own al.
Proof.
  intros p w s own al s' [H1 H2 H3 H4 H5 H6 H7] E. constructor; auto.
  - intros i q N F. destruct (evol_back _ _ _ _ E N) as (q0 & N0 & A1 & A2 & A3 & A4).
    rewrite A2. apply H5; auto. intro Q. rewrite Q in A4.
    destruct (q_st q); cbn in A4; auto.
  - intros e I. destruct (H6 e I) as (q & N & B1 & B2 & B3).
    destruct (proj2 E _ _ N) as (q' & N' & A1 & A2 & A3 & A4).
    exists q'. csplit; congruence.
  - intros e I. destruct (H7 e I) as (q & N & B1 & B2 & B3).
    destruct (proj2 E _ _ N) as (q' & N' & A1 & A2 & A3 & A4).
    exists q'. csplit; auto; congruence.
Qed.

(** Free and owned buffers have no transfer going on. *)
Lemma not_busy : forall p w s own al b,
  SI p w s own al -> In b (w_free w ++ p_free p ++ own) -> ~ busy_buffer s b.
Proof.
  intros p w s own al b I B (i & q & N & Q & F).
  assert (C : In b (map e_buf (w_busy w) ++ map p_buf (p_busy p))).
  { destruct (si_unf _ _ _ _ _ I i q N F) as [(e & E1 & _ & E3)|(e & E1 & _ & E3)];
      apply in_or_app; [left|right]; apply in_map_iff; exists e; split; auto; congruence. }
  assert (D : NoDup ((w_free w ++ p_free p ++ own) ++
                     (map e_buf (w_busy w) ++ map p_buf (p_busy p)))).
  { eapply Permutation_NoDup; [|apply (si_nodup _ _ _ _ _ I)]. perm. }
  revert B C D. generalize (w_free w ++ p_free p ++ own) as l1.
  generalize (map e_buf (w_busy w) ++ map p_buf (p_busy p)) as l2.
  clear. induction l1; intros B C D; [destruct B|].
  cbn in D. inversion D; subst. destruct B as [->|B]; auto.
  apply H1. apply in_or_app; auto.
Qed.

(** ** Moving buffers around *)

(** Anything that keeps the entries and the set of buffers. *)
Lemma SI_free : forall p w s own al p' w' own',
  SI p w s own al ->
  w_busy w' = w_busy w -> p_busy p' = p_busy p -> p_fsize p' = length (p_free p') ->
  Permutation (w_free w' ++ p_free p' ++ own') (w_free w ++ p_free p ++ own) ->
  SI p' w' s own' al.
Proof.
  intros p w s own al p' w' own' [H1 H2 H3 H4 H5 H6 H7] EW EP F P.
  assert (Q : Permutation (w_bufs w' ++ p_bufs p' ++ own') (w_bufs w ++ p_bufs p ++ own)).
  { unfold w_bufs, p_bufs. rewrite EW, EP. perm. }
  constructor; auto.
  - eapply Permutation_NoDup; [apply Permutation_sym|]; eauto.
  - eapply Permutation_trans; eauto.
  - rewrite EP; auto.
  - intros i q N U. unfold entry_of. rewrite EW, EP. apply H5; auto.
  - rewrite EW; auto.
  - rewrite EP; auto.
Qed.

(** Fewer buffers (deleting owned ones). *)
Lemma SI_drop : forall p w s own al al' b,
  SI p w s (b :: own) al -> Permutation al (b :: al') -> SI p w s own al'.
Proof.
  intros p w s own al al' b [H1 H2 H3 H4 H5 H6 H7] P.
  assert (Q : Permutation (w_bufs w ++ p_bufs p ++ b :: own)
                          (b :: w_bufs w ++ p_bufs p ++ own)) by (clear; perm).
  constructor; auto.
  - apply (Permutation_NoDup Q) in H1. inversion H1; auto.
  - apply Permutation_cons_inv with (a := b).
    eapply Permutation_trans; [apply Permutation_sym, Q|].
    exact (Permutation_trans H2 P).
Qed.

Lemma SI_fresh : forall p w s own al b,
  SI p w s own al -> ~ In b al -> SI p w s (b :: own) (b :: al).
Proof.
  intros p w s own al b [H1 H2 H3 H4 H5 H6 H7] NI.
  assert (Q : Permutation (w_bufs w ++ p_bufs p ++ b :: own)
                          (b :: w_bufs w ++ p_bufs p ++ own)) by (clear; perm).
  constructor; auto.
  - eapply Permutation_NoDup; [apply Permutation_sym, Q|]. constructor; auto.
    intro X. apply NI. eapply Permutation_in; eauto.
  - eapply Permutation_trans; [exact Q|]. constructor; auto.
Qed.

Lemma SI_al : forall p w s own al al',
  SI p w s own al -> Permutation al al' -> SI p w s own al'.
Proof.
  intros p w s own al al' [H1 H2 H3 H4 H5 H6 H7] P. constructor; auto.
  eapply Permutation_trans; eauto.
Qed.

Lemma SI_fresh_seq : forall k nx p w s own al,
  SI p w s own al -> (forall b, In b al -> b < nx)%nat ->
  SI p w s (seq nx k ++ own) (seq nx k ++ al).
Proof.
  induction k; intros nx p w s own al I0 LT; auto.
  cbn [seq app].
  assert (I1 : SI p w s (nx :: own) (nx :: al)).
  { apply SI_fresh; auto. intro X; apply LT in X; lia. }
  apply IHk with (nx := S nx) in I1.
  - eapply SI_al; [eapply SI_perm; [exact I1|]|]; clear; perm.
  - intros b [<-|B]; [lia|]. apply LT in B; lia.
Qed.

Lemma SI_drops : forall del p w s own al al',
  SI p w s (del ++ own) al -> Permutation al (del ++ al') -> SI p w s own al'.
Proof.
  induction del; intros p w s own al al' I0 P; cbn in *; [eapply SI_al; eauto|].
  eapply IHdel; [|apply Permutation_refl]. eapply SI_drop; eauto.
Qed.
