(** Every operation of the block scheduler keeps the relation to the view of the
    client. *)
From Coq Require Import ZArith List Bool Lia Permutation Arith.
From Verif Require Import BsModel BsSpec BsProofs.
Import ListNotations.

(** ** Queues *)

Lemma remove_spec b l c : In c (remove Nat.eq_dec b l) <-> In c l /\ c <> b.
Proof.
  split; intros H.
  - apply in_remove in H. exact H.
  - apply in_in_remove; tauto.
Qed.

Lemma remove_nodup b l : NoDup l -> NoDup (remove Nat.eq_dec b l).
Proof.
  induction l as [|x l IH]; cbn; intros H; [constructor|]. inversion H; subst.
  destruct (Nat.eq_dec b x); [auto|]. constructor; [|auto]. rewrite remove_spec. tauto.
Qed.

Lemma pq_erase_spec q b c : In c (map snd (pq_erase q b)) <-> In c (map snd q) /\ c <> b.
Proof.
  unfold pq_erase. rewrite !in_map_iff. split.
  - intros (x & <- & H). apply filter_In in H. destruct H as (H1 & H2). split; [eauto|].
    apply negb_true_iff, Nat.eqb_neq in H2. assumption.
  - intros ((x & <- & H) & N). exists x. split; [reflexivity|]. apply filter_In. split; [assumption|].
    apply negb_true_iff, Nat.eqb_neq. assumption.
Qed.

Lemma pq_erase_nodup q b : NoDup (map snd q) -> NoDup (map snd (pq_erase q b)).
Proof.
  induction q as [|x q IH]; cbn; intros H; [constructor|]. inversion H; subst.
  destruct (negb (snd x =? b)); [|auto]. cbn. constructor; [|auto].
  fold (pq_erase q b). rewrite pq_erase_spec. tauto.
Qed.

Lemma pq_put_perm x q : Permutation (pq_put x q) (x :: q).
Proof.
  induction q as [|y q IH]; cbn; [reflexivity|]. destruct (before x y); [reflexivity|].
  rewrite IH. apply perm_swap.
Qed.

Lemma pq_insert_perm q b p : Permutation (map snd (pq_insert q b p)) (b :: map snd (pq_erase q b)).
Proof. unfold pq_insert. rewrite pq_put_perm. reflexivity. Qed.

Lemma pq_insert_spec q b p c : In c (map snd (pq_insert q b p)) <-> c = b \/ In c (map snd q).
Proof.
  rewrite (pq_insert_perm q b p). cbn. rewrite pq_erase_spec.
  destruct (Nat.eq_dec c b); intuition.
Qed.

Lemma pq_insert_nodup q b p : NoDup (map snd q) -> NoDup (map snd (pq_insert q b p)).
Proof.
  intros H. rewrite (pq_insert_perm q b p). constructor; [rewrite pq_erase_spec; tauto|].
  apply pq_erase_nodup. assumption.
Qed.

Lemma lru_insert_spec q b c : In c (lru_insert q b) <-> c = b \/ In c q.
Proof.
  unfold lru_insert. rewrite in_app_iff, remove_spec. cbn. destruct (Nat.eq_dec c b); intuition.
Qed.

Lemma lru_insert_nodup q b : NoDup q -> NoDup (lru_insert q b).
Proof.
  intros H. unfold lru_insert. rewrite <- Permutation_cons_append.
  constructor; [rewrite remove_spec; tauto|]. apply remove_nodup. assumption.
Qed.

Lemma erase_spec a b c : is_sim a = false ->
  (In c (evictables (erase_evictable a b)) <-> In c (evictables a) /\ c <> b).
Proof.
  destruct a; cbn; intros H; try discriminate; [apply remove_spec|apply pq_erase_spec].
Qed.

Lemma erase_nodup a b : NoDup (evictables a) -> NoDup (evictables (erase_evictable a b)).
Proof.
  destruct a; cbn; auto; [apply remove_nodup|apply pq_erase_nodup].
Qed.

Lemma erase_sim a b : is_sim (erase_evictable a b) = is_sim a.
Proof. destruct a; reflexivity. Qed.

(** ** Changing the algorithm only *)

Lemma R_al max hand xs s p a x : R max hand xs s p -> NoDup (evictables a) ->
  (forall b, In b (evictables a) <-> In b (evictables (al s))) -> is_sim a = x ->
  R max hand xs (set_al s a) (set_simu p x).
Proof.
  intros [Rp Rm Rqn Rq Ru Ri Ro Rl Rfn Rf Rn Rs Rr] N Q E.
  constructor; auto; cbn. intros b. rewrite Q. apply Rq.
Qed.

Lemma R_al_same max hand xs s p a : R max hand xs s p -> NoDup (evictables a) ->
  (forall b, In b (evictables a) <-> In b (evictables (al s))) -> is_sim a = is_sim (al s) ->
  R max hand xs (set_al s a) p.
Proof.
  intros [Rp Rm Rqn Rq Ru Ri Ro Rl Rfn Rf Rn Rs Rr] N Q E.
  constructor; auto; cbn; [|congruence]. intros b. rewrite Q. apply Rq.
Qed.

Lemma R_sim_step max s p k m m' : R max [] [] s p -> al s = Sim k m ->
  R max [] [] (set_al s (Sim k m')) p.
Proof.
  intros H E. apply R_al_same; auto.
  - pose proof (R_qnd _ _ _ _ _ H) as N. rewrite E in N. exact N.
  - intros b. rewrite E. reflexivity.
  - rewrite E. reflexivity.
Qed.

Lemma acquired_rc B : is_acquired B = true <-> 1 <= rc B.
Proof. unfold is_acquired. rewrite Nat.ltb_lt. lia. Qed.
Lemma acquired_false B : is_acquired B = false <-> rc B = 0.
Proof. unfold is_acquired. rewrite Nat.ltb_ge. lia. Qed.

Lemma evictable_acquired e i d n : is_evictable (mkSb e i d (S n)) = false.
Proof. reflexivity. Qed.

Section Ops.
Variable pick : nat -> list nat -> nat.
Variable dflt : option Z.
Hypothesis Fresh : fresh_blocks pick.

Lemma live_lt max hand xs s p b : R max hand xs s p -> live p b = true -> (b <? nblk s) = true.
Proof. intros H L. apply Nat.ltb_lt. apply (R_live _ _ _ _ _ H). assumption. Qed.

(** ** acquire *)

Lemma acquire_ok max s p b un : R max [] [] s p -> live p b = true ->
  (exists s1 r, do pick dflt s (Acq b un) = Ok (s1, r) /\ allowed dflt p (Acq b un) r /\
     R max [] [] s1 (after p (Acq b un) r)) \/
  (do pick dflt s (Acq b un) = NoMemory /\ simu p = false /\ int (blk s b) = None /\
   free_i s = [] /\ remaining s = 0 /\ evictables (al s) = []).
Proof.
  intros H Lb. pose proof (live_lt _ _ _ _ _ _ H Lb) as Hlt.
  cbn [do allowed after]. unfold acquire. rewrite Hlt. cbn [negb].
  destruct (is_sim (al s)) eqn:Es.
  { left. rewrite (R_simu _ _ _ _ _ H), Es.
    destruct (al s) as [|k m|] eqn:Ea; try discriminate. cbn [bind].
    eexists. eexists. split; [reflexivity|]. split; [left; reflexivity|].
    eapply R_sim_step; eassumption. }
  assert (Ep : simu p = false) by (rewrite (R_simu _ _ _ _ _ H); exact Es).
  rewrite Ep.
  pose proof (R_rel _ _ _ _ _ H b Lb) as Br.
  assert (Ncase : forall (X : Type) (f1 : list nat -> simst -> X) (g : X),
     match al s with Sim k m => f1 k m | _ => g end = g).
  { intros X f1 g. destruct (al s); try discriminate; reflexivity. }
  rewrite Ncase. clear Ncase.
  destruct (int (blk s b)) as [i|] eqn:Ei.
  - (* internal *)
    left. cbn [bind].
    set (a' := if negb (is_acquired (blk s b)) then erase_evictable (al s) b else al s).
    assert (Est : set_b (if negb (is_acquired (blk s b)) then set_al s (erase_evictable (al s) b) else s) b
             (mkSb (ext (blk s b)) (Some i) (dirty (blk s b)) (S (rc (blk s b))))
           = set_b (set_al s a') b (mkSb (ext (blk s b)) (Some i) (dirty (blk s b)) (S (rc (blk s b))))).
    { unfold a'. destruct (negb (is_acquired (blk s b))); [reflexivity|]. destruct s; reflexivity. }
    rewrite Est. clear Est.
    eexists. exists (RData (mem s i)). split; [reflexivity|].
    unfold brel in Br. rewrite Ei in Br. destruct Br as (Er & B0 & B1).
    split.
    + right. exists (mem s i). split; [reflexivity|]. split.
      * intros Hr. apply B1. assumption.
      * intros Hr _. destruct (B0 Hr) as (-> & _). reflexivity.
    + assert (Qa : NoDup (evictables a') /\ is_sim a' = is_sim (al s) /\
         forall c, In c (evictables a') <-> In c (evictables (al s)) /\ c <> b).
      { pose proof (R_qnd _ _ _ _ _ H) as N. unfold a'.
        destruct (is_acquired (blk s b)) eqn:Eq; cbn [negb].
        - split; [assumption|]. split; [reflexivity|]. intros c. split; [|tauto].
          intros Hc. split; [assumption|]. intros ->.
          apply (R_q _ _ _ _ _ H) in Hc. destruct Hc as (_ & Hc & _).
          unfold is_evictable in Hc. rewrite Eq in Hc. discriminate.
        - split; [apply erase_nodup; assumption|]. split; [apply erase_sim|].
          intros c. apply erase_spec. assumption. }
      destruct Qa as (Qa1 & Qa2 & Qa3).
      refine (R_upd max [] [] s p b H Lb [] [] _ (mem s) (disk s) (used s) a' (own p) _ (ncall s)
                _ Qa1 _ Qa2 _ _ _ _ _ _); cbn [int ext]; auto.
      * rewrite Ei. reflexivity.
      * intros c. rewrite Qa3, (R_q _ _ _ _ _ H c). destruct (Nat.eq_dec c b) as [->|n].
        -- rewrite upd_same, evictable_acquired. intuition discriminate.
        -- rewrite upd_other by assumption. intuition.
      * intros e He. exact (R_used _ _ _ _ _ H b e He).
      * intros c e n He. destruct (R_used _ _ _ _ _ H c e He). repeat split; auto.
        intros K. apply n. eapply (R_inj _ _ _ _ _ H); eassumption.
      * apply (R_own _ _ _ _ _ H).
      * unfold brel. cbn [rc int dirty ext]. rewrite Er.
        destruct (Nat.eqb_spec (refs (vw p b)) 0) as [E0|E0].
        -- rewrite E0. cbn. split; [reflexivity|]. split; [discriminate|]. intros _.
           destruct (B0 E0) as (V1 & V2). split; [reflexivity|]. split; [discriminate|].
           split; [right; congruence|]. split; [assumption|]. auto.
        -- cbn. split; [reflexivity|]. split; [discriminate|]. intros _. apply B1. lia.
  - (* not internal *)
    unfold brel in Br. rewrite Ei in Br. destruct Br as (Er & Er0 & Ed & Ev).
    destruct (get_block_ok pick Fresh max s p H) as [(s1 & i & G & H1 & Eb & Es1 & En & Ef)|(G & F1 & F2 & F3)].
    2:{ right. rewrite G. cbn. repeat split; auto. }
    left. rewrite G. cbn [bind].
    assert (Nev : is_evictable (blk s b) = false) by (unfold is_evictable, is_internal; rewrite Ei; apply andb_false_r).
    rewrite (Eb b Nev).
    pose proof (R_rel _ _ _ _ _ H1 b Lb) as Br1. rewrite (Eb b Nev) in Br1.
    unfold brel in Br1. rewrite Ei in Br1. destruct Br1 as (_ & _ & _ & Ev1).
    rewrite Er, Er0.
    (* the common part *)
    assert (Main : forall d m' nm, (nm = (fun x => m' x)) ->
        m' i = d -> (forall j, j <> i -> m' j = mem s1 j) ->
        (un = false -> forall x, val (vw p b) = Some x -> d = x) ->
        R max [] [] (mkSt (remaining s1) (nalloc s1) (free_i s1) (nblk s1)
                       (upd (blk s1) b (mkSb (ext (blk s b)) (Some i) false 1))
                       (free_s s1) (al s1) m' (disk s1) (used s1) (ncall s1))
          (set_vw p b (mkV (val (vw p b)) 1 d false un))).
    { intros d m' nm _ Em Eo Hd.
      refine (R_upd max [i] [] s1 p b H1 Lb [] [] _ m' (disk s1) (used s1) (al s1) (own p) _ (ncall s1)
                _ (R_qnd _ _ _ _ _ H1) _ eq_refl _ _ _ _ _ _); cbn [int ext]; auto.
      - rewrite (Eb b Nev), Ei. reflexivity.
      - intros c. rewrite (R_q _ _ _ _ _ H1 c). destruct (Nat.eq_dec c b) as [->|n].
        + rewrite upd_same, evictable_acquired, (Eb b Nev), Nev. intuition discriminate.
        + rewrite upd_other by assumption. reflexivity.
      - intros j Hj _. apply Eo. intros ->. apply Hj. left. reflexivity.
      - intros e He. rewrite <- (Eb b Nev) in He. exact (R_used _ _ _ _ _ H1 b e He).
      - intros c e n He. destruct (R_used _ _ _ _ _ H1 c e He). repeat split; auto.
        intros K. rewrite <- (Eb b Nev) in K. apply n. eapply (R_inj _ _ _ _ _ H1); eassumption.
      - apply (R_own _ _ _ _ _ H1).
      - unfold brel. cbn [rc int dirty ext refs val work drt mdf].
        split; [reflexivity|]. split; [discriminate|]. intros _.
        split; [assumption|]. split; [discriminate|]. split; [discriminate|].
        split; [intros _; exact Ev1|]. intros Hn Hu.
        destruct (val (vw p b)) as [x|] eqn:Ex; [|congruence]. f_equal. symmetry. auto. }
    rewrite Ed. unfold sb_initialized, is_internal, is_external, has_external. rewrite Ei, Ed.
    cbn [orb negb andb]. rewrite andb_true_r.
    destruct (ext (blk s b)) as [e|] eqn:Ee.
    + cbn in Ev1. destruct un.
      * eexists. eexists. split; [reflexivity|]. cbn [mem set_b]. split.
        -- right. exists (mem s1 i). split; [reflexivity|]. split; [lia|]. discriminate.
        -- rewrite Nat.eqb_refl. eapply Main; auto. discriminate.
      * eexists. eexists. split; [reflexivity|]. cbn [mem set_mem set_b]. rewrite upd_same. split.
        -- right. exists (disk s1 e). split; [reflexivity|]. split; [lia|].
           intros _ _. rewrite Ev1. reflexivity.
        -- rewrite Nat.eqb_refl. apply (Main _ (upd (mem s1) i (disk s1 e)) _ eq_refl).
           ++ apply upd_same.
           ++ intros j Hj. apply upd_other. assumption.
           ++ intros _ x Hx. congruence.
    + cbn in Ev1. destruct dflt as [x|] eqn:Edf; [destruct un|].
      * eexists. eexists. split; [reflexivity|]. cbn [mem set_b]. split.
        -- right. exists (mem s1 i). split; [reflexivity|]. split; [lia|]. discriminate.
        -- rewrite Nat.eqb_refl. eapply Main; auto. discriminate.
      * eexists. eexists. split; [reflexivity|]. cbn [mem set_mem set_b]. rewrite upd_same. split.
        -- right. exists x. split; [reflexivity|]. split; [lia|].
           intros _ _. rewrite Ev1. reflexivity.
        -- rewrite Nat.eqb_refl. apply (Main _ (upd (mem s1) i x) _ eq_refl).
           ++ apply upd_same.
           ++ intros j Hj. apply upd_other. assumption.
           ++ intros _ y Hy. congruence.
      * eexists. eexists. split; [reflexivity|]. cbn [mem set_b]. split.
        -- right. exists (mem s1 i). split; [reflexivity|]. split; [lia|].
           intros _ _. rewrite Ev1. exact Logic.I.
        -- rewrite Nat.eqb_refl. eapply Main; auto. congruence.
Qed.

End Ops.
