(** Pools: coherence invariant, and its preservation by the I/O system when
    writes to one block are served in order. *)

From Coq Require Import ZArith List Bool Lia Permutation.
From Verif Require Import PoolModel PoolSpec PoolProofs PoolProofs2 PoolProofs3.
Import ListNotations.

Definition unf (s : io) (d : bid) (i : nat) : Prop :=
  exists q, nth_error (io_reqs s) i = Some q /\ q_write q = true /\
    q_bid q = d /\ q_st q <> Finished.
Definition notpend (s : io) (i : nat) : Prop :=
  exists q, nth_error (io_reqs s) i = Some q /\ q_st q <> Pending.
Definition is_write (s : io) (i : nat) : Prop :=
  exists q, nth_error (io_reqs s) i = Some q /\ q_write q = true.

Definition act_b (e : wentry) : bool := negb (Nat.eqb (b_storage (e_bid e)) 0).

(** [L]: what the client expects in every block.  [skip]: the block being
    overwritten, whose entry in the prefetch pool is about to be invalidated. *)
Record CI (L : bid -> Z) (skip : option bid) (pb : list pentry) (wb : list wentry)
    (s : io) : Prop := {
  c0 : forall i q, nth_error (io_reqs s) i = Some q -> b_storage (q_bid q) <> O;
  c1 : forall d, (forall i, ~ unf s d i) -> io_disk s d = L d;
  c2 : forall i q, nth_error (io_reqs s) i = Some q -> q_write q = true ->
       q_st q <> Finished -> (forall j, unf s (q_bid q) j -> (j <= i)%nat) ->
       io_mem s (q_buf q) = L (q_bid q);
  c3 : forall e, In e wb -> b_storage (e_bid e) <> O ->
       io_mem s (e_buf e) = L (e_bid e) /\
       (forall j, unf s (e_bid e) j -> (j <= e_req e)%nat) /\
       (notpend s (e_req e) -> forall j, (j < e_req e)%nat -> ~ unf s (e_bid e) j);
  c4 : forall e, In e pb -> is_write s (p_req e) -> notpend s (p_req e) ->
       forall j, (j < p_req e)%nat -> ~ unf s (p_bid e) j;
  c4' : forall e, In e pb -> skip <> Some (p_bid e) ->
       (forall x, In x wb -> e_bid x <> p_bid e) /\
       (is_write s (p_req e) -> io_mem s (p_buf e) = L (p_bid e) /\
          forall j, unf s (p_bid e) j -> (j <= p_req e)%nat) /\
       (~ is_write s (p_req e) ->
          (forall j, ~ unf s (p_bid e) j) /\
          (finished s (p_req e) = true -> io_mem s (p_buf e) = L (p_bid e)));
  c5 : forall d i, unf s d i ->
       (exists e, In e wb /\ e_bid e = d /\ (i <= e_req e)%nat) \/
       (exists e, In e pb /\ p_bid e = d /\ is_write s (p_req e) /\ (i <= p_req e)%nat);
  c7 : forall i q, nth_error (io_reqs s) i = Some q -> q_write q = true ->
       q_st q = Running -> forall j, (j < i)%nat -> ~ unf s (q_bid q) j;
  c8 : NoDup (map e_bid (filter act_b wb)) }.

(** ** Entries and buffers *)

Lemma NoDup_map_inj : forall {A B} (f : A -> B) l x y,
  NoDup (map f l) -> In x l -> In y l -> f x = f y -> x = y.
Proof.
  induction l; cbn; intros x y N X Y E; [destruct X|]. inversion N; subst.
  destruct X as [->|X], Y as [->|Y]; auto.
  - exfalso. apply H1. rewrite E. apply in_map; auto.
  - exfalso. apply H1. rewrite <- E. apply in_map; auto.
Qed.

Definition pairs (p : ppool) (w : wpool) : list (nat * nat) :=
  map (fun e => (e_req e, e_buf e)) (w_busy w) ++ map (fun e => (p_req e, p_buf e)) (p_busy p).

Lemma pairs_bufs : forall p w,
  map snd (pairs p w) = map e_buf (w_busy w) ++ map p_buf (p_busy p).
Proof. intros; unfold pairs. rewrite map_app, !map_map; cbn. auto. Qed.

Lemma entry_pairs : forall p w i b, entry_of p w i b <-> In (i, b) (pairs p w).
Proof.
  intros; unfold entry_of, pairs. rewrite in_app_iff, !in_map_iff.
  split; (intros [(e & A & B)|(e & A & B)]; [left|right]; exists e).
  - destruct B as (<- & <-); auto.
  - destruct B as (<- & <-); auto.
  - inversion A; subst; auto.
  - inversion A; subst; auto.
Qed.

Lemma SI_busy_nodup : forall p w s own al, SI p w s own al ->
  NoDup (map e_buf (w_busy w) ++ map p_buf (p_busy p)).
Proof.
  intros p w s own al I0.
  assert (P : Permutation (w_bufs w ++ p_bufs p ++ own)
    ((w_free w ++ p_free p ++ own) ++ (map e_buf (w_busy w) ++ map p_buf (p_busy p))))
    by (clear; perm).
  pose proof (Permutation_NoDup P (si_nodup _ _ _ _ _ I0)) as N.
  revert N. generalize (w_free w ++ p_free p ++ own). clear.
  induction l; cbn; auto. intros N; inversion N; auto.
Qed.

Lemma buf_inj : forall p w s own al i j b, SI p w s own al ->
  entry_of p w i b -> entry_of p w j b -> i = j.
Proof.
  intros p w s own al i j b I0 A B. apply SI_busy_nodup in I0.
  rewrite <- pairs_bufs in I0. apply entry_pairs in A. apply entry_pairs in B.
  pose proof (NoDup_map_inj snd _ _ _ I0 A B eq_refl) as E. congruence.
Qed.

Lemma w_entry_of : forall p w e, In e (w_busy w) -> entry_of p w (e_req e) (e_buf e).
Proof. intros; left; eauto. Qed.
Lemma p_entry_of : forall p w e, In e (p_busy p) -> entry_of p w (p_req e) (p_buf e).
Proof. intros; right; eauto. Qed.

Lemma nodup_app_l : forall {A} (l l' : list A), NoDup (l ++ l') -> NoDup l.
Proof.
  induction l; cbn; intros l' H; constructor; inversion H; subst.
  - intro X; apply H2; apply in_app_iff; auto.
  - eauto.
Qed.
Lemma nodup_app_r : forall {A} (l l' : list A), NoDup (l ++ l') -> NoDup l'.
Proof. induction l; cbn; intros l' H; auto. inversion H; auto. Qed.
Lemma nodup_app_disj : forall {A} (l l' : list A) x, NoDup (l ++ l') -> In x l -> In x l' -> False.
Proof.
  induction l; cbn; intros l' x H X Y; [auto|]. inversion H; subst.
  destruct X as [->|X]; [apply H2; apply in_app_iff; auto|eauto].
Qed.

(** The entry of a request is unique. *)
Lemma p_entry_inj : forall p w s own al e1 e2, SI p w s own al ->
  In e1 (p_busy p) -> In e2 (p_busy p) -> p_req e1 = p_req e2 -> e1 = e2.
Proof.
  intros p w s own al e1 e2 I0 A B E.
  destruct (si_p _ _ _ _ _ I0 _ A) as (q1 & N1 & B1 & _).
  destruct (si_p _ _ _ _ _ I0 _ B) as (q2 & N2 & B2 & _).
  apply SI_busy_nodup in I0. apply nodup_app_r in I0.
  eapply NoDup_map_inj; eauto. congruence.
Qed.

Lemma wp_entry_disj : forall p w s own al e1 e2, SI p w s own al ->
  In e1 (w_busy w) -> In e2 (p_busy p) -> e_req e1 <> p_req e2.
Proof.
  intros p w s own al e1 e2 I0 A B E.
  destruct (si_w _ _ _ _ _ I0 _ A) as (q1 & N1 & _ & B1 & _).
  destruct (si_p _ _ _ _ _ I0 _ B) as (q2 & N2 & B2 & _).
  apply SI_busy_nodup in I0.
  eapply nodup_app_disj; [exact I0|apply in_map; exact A|].
  replace (e_buf e1) with (p_buf e2) by congruence. apply in_map; auto.
Qed.

(** ** Requests under evolution *)

Lemma unf_evol : forall s s' d i, evol s s' -> unf s' d i -> unf s d i.
Proof.
  intros s s' d i E (q' & N & A & B & C).
  destruct (evol_back _ _ _ _ E N) as (q & N0 & R1 & R2 & R3 & R4).
  exists q; csplit; auto; try congruence. intro F. rewrite F in R4.
  destruct (q_st q'); cbn in R4; auto.
Qed.

Lemma is_write_evol : forall s s' i, evol s s' -> (is_write s' i <-> is_write s i).
Proof.
  intros s s' i E; split; intros (q & N & A).
  - destruct (evol_back _ _ _ _ E N) as (q0 & N0 & R1 & _). exists q0; split; congruence.
  - destruct (proj2 E _ _ N) as (q0 & N0 & R1 & _). exists q0; split; congruence.
Qed.

Lemma is_write_dec : forall s i, is_write s i \/ ~ is_write s i.
Proof.
  intros. unfold is_write. destruct (nth_error (io_reqs s) i) as [q|].
  - destruct (q_write q) eqn:E; [left; eauto|right; intros (q0 & A & B); congruence].
  - right; intros (q & A & _); discriminate.
Qed.

Lemma nth_set : forall s i q t j q', nth_error (io_reqs s) i = Some q ->
  nth_error (io_reqs (set_st s i q t)) j = Some q' ->
  (j = i /\ q' = with_st q t) \/ (j <> i /\ nth_error (io_reqs s) j = Some q').
Proof.
  intros s i q t j q' N H. cbn in H. destruct (Nat.eq_dec i j) as [->|D].
  - rewrite (set_nth_same _ _ _ _ N) in H. left; split; congruence.
  - rewrite set_nth_other in H by auto. auto.
Qed.

Lemma nth_set_other : forall s i q t j, j <> i ->
  nth_error (io_reqs (set_st s i q t)) j = nth_error (io_reqs s) j.
Proof. intros. cbn. apply set_nth_other; auto. Qed.

Lemma nth_set_same : forall s i q t, nth_error (io_reqs s) i = Some q ->
  nth_error (io_reqs (set_st s i q t)) i = Some (with_st q t).
Proof. intros. cbn. eapply set_nth_same; eauto. Qed.

(** ** The I/O system keeps the invariant *)

Lemma CI_start : forall L skip p w s own al i q,
  SI p w s own al -> CI L skip (p_busy p) (w_busy w) s ->
  nth_error (io_reqs s) i = Some q -> q_st q = Pending ->
  (q_write q = true -> forall j q', (j < i)%nat -> nth_error (io_reqs s) j = Some q' ->
     q_write q' = true -> q_bid q' = q_bid q -> q_st q' = Finished) ->
  CI L skip (p_busy p) (w_busy w) (set_st s i q Running).
Proof.
  intros L skip p w s own al i q I0 C N P FI.
  assert (EV : evol s (set_st s i q Running)) by (apply set_st_evol; auto; rewrite P; cbn; auto).
  assert (U : forall d j, unf (set_st s i q Running) d j <-> unf s d j).
  { intros d j; split; [apply unf_evol; auto|].
    intros (q' & N' & A & B & D). destruct (Nat.eq_dec j i) as [->|NE].
    - rewrite N in N'; inversion N'; subst. exists (with_st q' Running).
      split; [apply nth_set_same; auto|]. cbn; csplit; auto; congruence.
    - exists q'. rewrite nth_set_other; auto. }
  assert (LOW : q_write q = true -> forall j, (j < i)%nat -> ~ unf s (q_bid q) j).
  { intros W j J (q' & N' & A & B & D). apply D. eapply FI; eauto. }
  assert (NP : forall j, notpend (set_st s i q Running) j -> notpend s j \/ j = i).
  { intros j (q' & N' & A). destruct (nth_set _ _ _ _ _ _ N N') as [(-> & _)|(_ & B)]; auto.
    left; exists q'; auto. }
  constructor.
  - intros j q' N'. destruct (nth_set _ _ _ _ _ _ N N') as [(-> & ->)|(_ & B)].
    + cbn. eapply c0; eauto.
    + eapply c0; eauto.
  - intros d H. cbn. apply (c1 _ _ _ _ _ C). intros j X. apply (H j). apply U; auto.
  - intros j q' N' W F M. destruct (nth_set _ _ _ _ _ _ N N') as [(-> & ->)|(_ & B)]; cbn in *.
    + apply (c2 _ _ _ _ _ C i q); auto; [congruence|]. intros; apply M; apply U; auto.
    + apply (c2 _ _ _ _ _ C j q'); auto. intros; apply M; apply U; auto.
  - intros e E A. destruct (c3 _ _ _ _ _ C e E A) as (X & Y & Z). csplit; auto.
    + intros; apply Y; apply U; auto.
    + intros NPE j J UJ. apply U in UJ. destruct (NP _ NPE) as [NPE'|EI].
      * apply (Z NPE' j J UJ).
      * destruct (si_w _ _ _ _ _ I0 e E) as (q' & N' & B1 & B2 & B3).
        rewrite EI, N in N'; inversion N'; subst q'. rewrite EI in J.
        destruct B3 as [B3|B3]; [|congruence]. rewrite B3 in UJ. apply (LOW B1 j J UJ).
  - intros e E W NPE j J UJ. apply U in UJ. apply (is_write_evol _ _ _ EV) in W.
    destruct (NP _ NPE) as [NPE'|EI].
    + apply (c4 _ _ _ _ _ C e E W NPE' j J UJ).
    + destruct (si_p _ _ _ _ _ I0 e E) as (q' & N' & B1 & B2 & B3).
      rewrite EI, N in N'; inversion N'; subst q'. rewrite EI in J.
      destruct W as (q' & N'' & W). rewrite EI, N in N''; inversion N''; subst q'.
      rewrite <- B2 in UJ. apply (LOW W j J UJ).
  - intros e E SK. destruct (c4' _ _ _ _ _ C e E SK) as (X & Y & Z). csplit; auto.
    + intros W. apply (is_write_evol _ _ _ EV) in W. destruct (Y W) as (Y1 & Y2).
      split; auto. intros; apply Y2; apply U; auto.
    + intros W. assert (W' : ~ is_write s (p_req e)) by (intro; apply W; apply (is_write_evol _ _ _ EV); auto).
      destruct (Z W') as (Z1 & Z2). split; [intros j UJ; apply U in UJ; apply (Z1 j UJ)|].
      intros F. apply Z2. apply finished_spec in F. destruct F as (q' & N' & F).
      destruct (nth_set _ _ _ _ _ _ N N') as [(-> & ->)|(_ & B)]; [cbn in F; discriminate|].
      apply finished_spec; eauto.
  - intros d j UJ. apply U in UJ. destruct (c5 _ _ _ _ _ C d j UJ) as [X|(e & E1 & E2 & E3 & E4)]; auto.
    right; exists e; csplit; auto. apply (is_write_evol _ _ _ EV); auto.
  - intros j q' N' W R k K UK. apply U in UK.
    destruct (nth_set _ _ _ _ _ _ N N') as [(-> & ->)|(_ & B)]; cbn in *.
    + apply (LOW W k K UK).
    + apply (c7 _ _ _ _ _ C j q' B W R k K UK).
  - apply (c8 _ _ _ _ _ C).
Qed.

Lemma CI_served_write : forall L skip p w s own al i q,
  SI p w s own al -> CI L skip (p_busy p) (w_busy w) s ->
  nth_error (io_reqs s) i = Some q -> q_st q = Running -> q_write q = true ->
  CI L skip (p_busy p) (w_busy w)
     (MkIO (io_mem s) (set_disk (io_disk s) (q_bid q) (io_mem s (q_buf q)))
           (io_reqs (set_st s i q Finished))).
Proof.
  intros L skip p w s own al i q I0 C N P W.
  set (s' := MkIO _ _ _).
  assert (EV : evol s s').
  { apply evol_reqs with (s1 := set_st s i q Finished); [reflexivity|].
    apply set_st_evol; auto. rewrite P; cbn; auto. }
  assert (NS : forall j q', nth_error (io_reqs s') j = Some q' ->
    (j = i /\ q' = with_st q Finished) \/ (j <> i /\ nth_error (io_reqs s) j = Some q'))
    by (intros; eapply nth_set; eauto).
  assert (U : forall d j, unf s' d j <-> unf s d j /\ j <> i).
  { intros d j; split.
    - intros UJ. split; [apply (unf_evol _ _ _ _ EV); auto|]. intros ->.
      destruct UJ as (q' & N' & A & B & D).
      destruct (NS _ _ N') as [(_ & ->)|(X & _)]; [cbn in D|]; congruence.
    - intros ((q' & N' & A & B & D) & NE). exists q'. csplit; auto.
      unfold s'; cbn [io_reqs]. rewrite nth_set_other; auto. }
  assert (UI : unf s (q_bid q) i) by (exists q; csplit; auto; congruence).
  assert (NP : forall j, notpend s' j -> notpend s j).
  { intros j (q' & N' & A). destruct (NS _ _ N') as [(-> & _)|(_ & B)].
    - exists q; split; auto; congruence.
    - exists q'; auto. }
  constructor.
  - intros j q' N'. destruct (NS _ _ N') as [(-> & ->)|(_ & B)]; cbn; eapply c0; eauto.
  - intros d H. unfold s'; cbn. unfold set_disk. destruct (bid_eqb d (q_bid q)) eqn:E.
    + apply bid_eqb_eq in E. subst d. apply (c2 _ _ _ _ _ C i q); auto; [congruence|].
      intros j UJ. destruct (Nat.eq_dec j i); [lia|]. exfalso. apply (H j). apply U; auto.
    + apply bid_eqb_neq in E. apply (c1 _ _ _ _ _ C). intros j UJ. apply (H j). apply U.
      split; auto. intros ->. destruct UJ as (q' & N' & _ & B & _). congruence.
  - intros j q' N' W' F M. destruct (NS _ _ N') as [(-> & ->)|(NE & B)]; [cbn in F; congruence|].
    apply (c2 _ _ _ _ _ C j q'); auto. intros k UK.
    destruct (Nat.eq_dec k i) as [->|NK]; [|apply M; apply U; auto].
    destruct (Nat.lt_ge_cases j i) as [LT|GE]; [|auto].
    exfalso. apply (c7 _ _ _ _ _ C i q N W P j LT).
    destruct UK as (qk & Nk & _ & Bk & _). rewrite N in Nk; inversion Nk; subst qk.
    exists q'; csplit; auto.
  - intros e E A. destruct (c3 _ _ _ _ _ C e E A) as (X & Y & Z). csplit; auto.
    + intros j UJ; apply Y; apply U in UJ; tauto.
    + intros NPE j J UJ. apply U in UJ. apply (Z (NP _ NPE) j J); tauto.
  - intros e E We NPE j J UJ. apply U in UJ. apply (is_write_evol _ _ _ EV) in We.
    apply (c4 _ _ _ _ _ C e E We (NP _ NPE) j J); tauto.
  - intros e E SK. destruct (c4' _ _ _ _ _ C e E SK) as (X & Y & Z). csplit; auto.
    + intros We. apply (is_write_evol _ _ _ EV) in We. destruct (Y We) as (Y1 & Y2).
      split; auto. intros j UJ; apply Y2; apply U in UJ; tauto.
    + intros We. assert (We' : ~ is_write s (p_req e)) by (intro; apply We; apply (is_write_evol _ _ _ EV); auto).
      destruct (Z We') as (Z1 & Z2). split; [intros j UJ; apply U in UJ; apply (Z1 j); tauto|].
      intros F. apply Z2. apply finished_spec in F. destruct F as (q' & N' & F).
      destruct (NS _ _ N') as [(EI & ->)|(_ & B)]; [|apply finished_spec; eauto].
      exfalso. apply We'. exists q; rewrite EI; auto.
  - intros d j UJ. apply U in UJ. destruct UJ as (UJ & _).
    destruct (c5 _ _ _ _ _ C d j UJ) as [X|(e & E1 & E2 & E3 & E4)]; auto.
    right; exists e; csplit; auto. apply (is_write_evol _ _ _ EV); auto.
  - intros j q' N' W' R k K UK. apply U in UK.
    destruct (NS _ _ N') as [(-> & ->)|(_ & B)]; cbn in *; [discriminate|].
    apply (c7 _ _ _ _ _ C j q' B W' R k K); tauto.
  - apply (c8 _ _ _ _ _ C).
Qed.

(** Memory outside the buffers in use does not matter. *)
Lemma CI_mem : forall L skip p w s own al m',
  SI p w s own al -> CI L skip (p_busy p) (w_busy w) s ->
  (forall i b, entry_of p w i b -> m' b = io_mem s b) ->
  CI L skip (p_busy p) (w_busy w) (MkIO m' (io_disk s) (io_reqs s)).
Proof.
  intros L skip p w s own al m' I0 C M. constructor.
  - exact (c0 _ _ _ _ _ C).
  - exact (c1 _ _ _ _ _ C).
  - intros i q N W F X. cbn. rewrite (M i); [|apply (si_unf _ _ _ _ _ I0); auto].
    apply (c2 _ _ _ _ _ C i q); auto.
  - intros e E A. destruct (c3 _ _ _ _ _ C e E A) as (X & Y & Z). csplit; auto.
    cbn. rewrite (M _ _ (w_entry_of p w e E)). auto.
  - exact (c4 _ _ _ _ _ C).
  - intros e E SK. destruct (c4' _ _ _ _ _ C e E SK) as (X & Y & Z). csplit; auto.
    + intros We. destruct (Y We). split; auto. cbn. rewrite (M _ _ (p_entry_of p w e E)). auto.
    + intros We. destruct (Z We). split; auto. intros F. cbn. rewrite (M _ _ (p_entry_of p w e E)). auto.
  - exact (c5 _ _ _ _ _ C).
  - exact (c7 _ _ _ _ _ C).
  - exact (c8 _ _ _ _ _ C).
Qed.

Lemma CI_served_read : forall L skip p w s own al i q,
  SI p w s own al -> CI L skip (p_busy p) (w_busy w) s ->
  nth_error (io_reqs s) i = Some q -> q_st q = Running -> q_write q = false ->
  CI L skip (p_busy p) (w_busy w)
     (MkIO (set_mem (io_mem s) (q_buf q) (io_disk s (q_bid q))) (io_disk s)
           (io_reqs (set_st s i q Finished))).
Proof.
  intros L skip p w s own al i q I0 C N P W.
  set (s' := MkIO _ _ _).
  assert (EV : evol s s').
  { apply evol_reqs with (s1 := set_st s i q Finished); [reflexivity|].
    apply set_st_evol; auto. rewrite P; cbn; auto. }
  assert (NS : forall j q', nth_error (io_reqs s') j = Some q' ->
    (j = i /\ q' = with_st q Finished) \/ (j <> i /\ nth_error (io_reqs s) j = Some q'))
    by (intros; eapply nth_set; eauto).
  assert (U : forall d j, unf s' d j <-> unf s d j).
  { intros d j; split; [apply (unf_evol _ _ _ _ EV); auto|].
    intros (q' & N' & A & B & D). exists q'. csplit; auto.
    unfold s'; cbn [io_reqs]. rewrite nth_set_other; auto. intros ->. congruence. }
  assert (NP : forall j, notpend s' j -> notpend s j).
  { intros j (q' & N' & A). destruct (NS _ _ N') as [(-> & _)|(_ & B)].
    - exists q; split; auto; congruence.
    - exists q'; auto. }
  assert (NF : q_st q <> Finished) by congruence.
  pose proof (si_unf _ _ _ _ _ I0 i q N NF) as EN.
  assert (MO : forall j b, entry_of p w j b -> j <> i -> io_mem s' b = io_mem s b).
  { intros j b EB NE. unfold s'; cbn. unfold set_mem.
    destruct (Nat.eqb b (q_buf q)) eqn:E; auto. apply Nat.eqb_eq in E. subst b.
    exfalso. apply NE. eapply buf_inj; eauto. }
  constructor.
  - intros j q' N'. destruct (NS _ _ N') as [(-> & ->)|(_ & B)]; cbn; eapply c0; eauto.
  - intros d H. unfold s'; cbn. apply (c1 _ _ _ _ _ C). intros j X. apply (H j). apply U; auto.
  - intros j q' N' W' F M. destruct (NS _ _ N') as [(-> & ->)|(NE & B)]; [cbn in F; congruence|].
    rewrite (MO j); auto.
    + apply (c2 _ _ _ _ _ C j q'); auto. intros; apply M; apply U; auto.
    + apply (si_unf _ _ _ _ _ I0); auto.
  - intros e E A. destruct (c3 _ _ _ _ _ C e E A) as (X & Y & Z).
    destruct (si_w _ _ _ _ _ I0 e E) as (q' & N' & B1 & B2 & B3). csplit.
    + rewrite (MO (e_req e)); auto; [apply w_entry_of; auto|]. intros EI. congruence.
    + intros j UJ; apply Y; apply U in UJ; tauto.
    + intros NPE j J UJ. apply U in UJ. apply (Z (NP _ NPE) j J); tauto.
  - intros e E We NPE j J UJ. apply U in UJ. apply (is_write_evol _ _ _ EV) in We.
    apply (c4 _ _ _ _ _ C e E We (NP _ NPE) j J); tauto.
  - intros e E SK. destruct (c4' _ _ _ _ _ C e E SK) as (X & Y & Z). csplit; auto.
    + intros We. apply (is_write_evol _ _ _ EV) in We. destruct (Y We) as (Y1 & Y2).
      split; [|intros j UJ; apply Y2; apply U in UJ; tauto].
      rewrite (MO (p_req e)); auto; [apply p_entry_of; auto|]. intros EI.
      destruct We as (q' & N' & We). congruence.
    + intros We. assert (We' : ~ is_write s (p_req e)) by (intro; apply We; apply (is_write_evol _ _ _ EV); auto).
      destruct (Z We') as (Z1 & Z2). split; [intros j UJ; apply U in UJ; apply (Z1 j); tauto|].
      intros F. apply finished_spec in F. destruct F as (q' & N' & F).
      destruct (NS _ _ N') as [(EI & ->)|(NE & B)].
      * destruct (si_p _ _ _ _ _ I0 e E) as (q1 & N1 & B1 & B2 & B3).
        rewrite EI, N in N1; inversion N1; subst q1.
        unfold s'; cbn. unfold set_mem. rewrite B1, Nat.eqb_refl, B2.
        apply (c1 _ _ _ _ _ C). auto.
      * rewrite (MO (p_req e)); auto; [|apply p_entry_of; auto].
        apply Z2. apply finished_spec; eauto.
  - intros d j UJ. apply U in UJ.
    destruct (c5 _ _ _ _ _ C d j UJ) as [X|(e & E1 & E2 & E3 & E4)]; auto.
    right; exists e; csplit; auto. apply (is_write_evol _ _ _ EV); auto.
  - intros j q' N' W' R k K UK. apply U in UK.
    destruct (NS _ _ N') as [(-> & ->)|(_ & B)]; cbn in *; [discriminate|].
    apply (c7 _ _ _ _ _ C j q' B W' R k K); tauto.
  - apply (c8 _ _ _ _ _ C).
Qed.

Lemma CI_env : forall L skip p w own al s s',
  env true s s' -> SI p w s own al -> CI L skip (p_busy p) (w_busy w) s ->
  CI L skip (p_busy p) (w_busy w) s'.
Proof.
  intros L skip p w own al s s' H; induction H; intros I0 C; auto.
  apply IHenv.
  - eapply SI_evol; eauto. eapply env1_evol; eauto.
  - destruct H.
    + eapply CI_start; eauto.
    + eapply CI_served_write; eauto.
    + eapply CI_served_read; eauto.
Qed.

(** The I/O system leaves blocks alone that no request uses. *)
Lemma env_mem : forall fifo p w own al s s' b,
  env fifo s s' -> SI p w s own al -> In b (w_free w ++ p_free p ++ own) ->
  io_mem s' b = io_mem s b.
Proof.
  intros fifo p w own al s s' b H; induction H; intros I0 B; auto.
  rewrite IHenv; [|eapply SI_evol; eauto; eapply env1_evol; eauto|auto].
  pose proof (not_busy _ _ _ _ _ _ I0 B) as NB.
  destruct H; cbn; auto. unfold set_mem. destruct (Nat.eqb b (q_buf q)) eqn:E; auto.
  apply Nat.eqb_eq in E. exfalso. apply NB. exists i, q; csplit; auto; congruence.
Qed.
