(** Every operation of the block scheduler keeps the relation to the view of the
    client (third part), and runs. *)
From Coq Require Import ZArith List Bool Lia Permutation Arith.
From Verif Require Import BsModel BsSpec BsProofs BsProofs2 BsProofs3.
Import ListNotations.

Lemma isinit_ok max s p b pick dflt : R max [] [] s p -> legal p (IsInit b) ->
  exists r, do pick dflt s (IsInit b) = Ok (s, r) /\ allowed dflt p (IsInit b) r.
Proof.
  intros H Lb. cbn in Lb. pose proof (live_lt _ _ _ _ _ _ H Lb) as Hlt.
  cbn [do allowed]. unfold is_initialized. rewrite Hlt. cbn [negb].
  destruct (simu p) eqn:Ep.
  { rewrite (R_simu _ _ _ _ _ H) in Ep. destruct (al s) as [|k m|] eqn:Ea; try discriminate.
    cbn [bind]. eauto. }
  rewrite (R_simu _ _ _ _ _ H) in Ep. rewrite (Ncase _ Ep). cbn [bind].
  eexists. split; [reflexivity|]. right. eexists. split; [reflexivity|].
  pose proof (R_rel _ _ _ _ _ H b Lb) as Br. unfold brel in Br. destruct Br as (Er & Br).
  unfold sb_initialized, is_internal, is_external, has_external.
  destruct (int (blk s b)) as [i|].
  - cbn. split; [intros _|reflexivity]. destruct Br as (B0 & B1).
    destruct (refs (vw p b)) as [|n]; [right|left; lia]. destruct (B0 eq_refl) as (E & _). congruence.
  - destruct Br as (B0 & B1 & B2). rewrite B1, B2. cbn [orb negb]. rewrite andb_true_r.
    destruct (ext (blk s b)); cbn; split; intros K; auto; try discriminate.
    + right. discriminate.
    + destruct K; [lia|congruence].
Qed.

Lemma fold_min_in x r : In (fold_right Nat.min x r) (x :: r).
Proof.
  induction r as [|y r IH]; cbn; [auto|].
  destruct (Nat.min_spec y (fold_right Nat.min x r)) as [(_ & ->)|(_ & ->)]; [auto|].
  destruct IH as [IH|IH]; auto.
Qed.

Definition rm_first (b : nat) := fix rm (l : list nat) := match l with
                        | [] => []
                        | y :: l => if Nat.eqb y b then l else y :: rm l end.

Lemma rm_first_remove b l : NoDup l -> rm_first b l = remove Nat.eq_dec b l.
Proof.
  induction l as [|y l IH]; intros N; [reflexivity|]. inversion N; subst. cbn.
  destruct (Nat.eqb_spec y b) as [->|n].
  - destruct (Nat.eq_dec b b); [|congruence].
    symmetry. apply notin_remove. assumption.
  - destruct (Nat.eq_dec b y); [congruence|]. f_equal. apply IH. assumption.
Qed.

Lemma held_S n f : held (S n) f = held n f ++ opt (int (f n)).
Proof.
  unfold held. rewrite seq_S, flat_map_app. cbn. rewrite app_nil_r. reflexivity.
Qed.

Lemma alloc_ok max s p pick dflt : R max [] [] s p ->
  exists s1 r, do pick dflt s Alloc = Ok (s1, r) /\ allowed dflt p Alloc r /\
    R max [] [] s1 (after p Alloc r).
Proof.
  intros H. cbn [do allowed after]. unfold allocate.
  destruct (free_s s) as [|x r] eqn:Ef.
  - eexists. eexists. split; [reflexivity|].
    destruct H as [Rp Rm Rqn Rq Ru Ri Ro Rl Rfn Rf Rn Rs Rr].
    assert (Ll : live p (nblk s) = false).
    { destruct (live p (nblk s)) eqn:E; [|reflexivity]. apply Rl in E. lia. }
    split; [eauto|].
    assert (Ee : evictables (match al s with Sim k m => Sim k (sim_set m (nblk s) 0%Z) | a => a end) = evictables (al s))
      by (destruct (al s); reflexivity).
    assert (Es : is_sim (match al s with Sim k m => Sim k (sim_set m (nblk s) 0%Z) | a => a end) = is_sim (al s))
      by (destruct (al s); reflexivity).
    assert (Eb : forall c, upd (blk s) (nblk s) sb_new c = blk s c).
    { intros c. unfold upd. destruct (Nat.eqb_spec c (nblk s)) as [->|]; [|reflexivity].
      symmetry. apply Rn. assumption. }
    assert (Ev : forall c, upd (vw p) (nblk s) v0 c = vw p c).
    { intros c. unfold upd. destruct (Nat.eqb_spec c (nblk s)) as [->|]; [|reflexivity].
      symmetry. apply Rn. assumption. }
    constructor; cbn [remaining nalloc free_i nblk blk free_s al mem disk used ncall live vw own simu set_live].
    + rewrite held_S, upd_same. cbn. rewrite app_nil_r.
      rewrite (held_ext _ _ (blk s)) by (intros; rewrite Eb; reflexivity). assumption.
    + assumption.
    + rewrite Ee. assumption.
    + intros c. rewrite Ee, Rq, Eb. split; [intuition lia|]. intros (K1 & K2 & K3). repeat split; auto.
      destruct (Nat.eq_dec c (nblk s)) as [->|]; [|lia]. destruct (Rn _ Ll) as (K & _). rewrite K in K2. discriminate.
    + intros c e. rewrite Eb. apply Ru.
    + intros c c' e. rewrite !Eb. apply Ri.
    + assumption.
    + intros c. unfold upd. destruct (Nat.eqb_spec c (nblk s)) as [->|n].
      * cbn. intuition.
      * rewrite Rl, Ef. intuition.
    + constructor.
    + contradiction.
    + intros c. unfold upd at 1. destruct (Nat.eqb_spec c (nblk s)) as [->|n]; [discriminate|].
      rewrite Eb, Ev. apply Rn.
    + rewrite Es. assumption.
    + intros c. rewrite Eb, Ev. unfold upd. destruct (Nat.eqb_spec c (nblk s)) as [->|n]; [|apply Rr].
      intros _. destruct (Rn _ Ll) as (-> & ->). unfold brel. cbn. auto.
  - cbv zeta. eexists. eexists. split; [reflexivity|].
    pose proof (fold_min_in x r) as Hin. set (b := fold_right Nat.min x r) in *. clearbody b.
    rewrite <- Ef in Hin.
    destruct H as [Rp Rm Rqn Rq Ru Ri Ro Rl Rfn Rf Rn Rs Rr].
    assert (Ll : live p b = false).
    { destruct (live p b) eqn:E; [|reflexivity]. apply Rl in E. tauto. }
    split; [eauto|].
    change (R max [] [] (set_free_s s (rm_first b (x :: r))) (set_live p b true)). rewrite <- Ef.
    rewrite rm_first_remove by assumption.
    assert (Ev : forall c, upd (vw p) b v0 c = vw p c).
    { intros c. unfold upd. destruct (Nat.eqb_spec c b) as [->|]; [|reflexivity].
      symmetry. apply Rn. assumption. }
    constructor; cbn [remaining nalloc free_i nblk blk free_s al mem disk used ncall live vw own simu set_live set_free_s]; auto.
    + intros c. rewrite remove_spec. unfold upd. destruct (Nat.eqb_spec c b) as [->|n].
      * split; [|reflexivity]. intros _. split; [apply Rf; assumption|tauto].
      * rewrite Rl. tauto.
    + apply remove_nodup. assumption.
    + intros c Hc. apply remove_spec in Hc. apply Rf. tauto.
    + intros c. rewrite Ev. unfold upd. destruct (Nat.eqb_spec c b) as [->|n]; [discriminate|]. apply Rn.
    + intros c. rewrite Ev. unfold upd. destruct (Nat.eqb_spec c b) as [->|n]; [|apply Rr].
      intros _. destruct (Rn _ Ll) as (-> & ->). unfold brel. cbn. auto.
Qed.

(** A block without a value and references can be put on the free list. *)
Lemma R_free_block max s p b : R max [] [] s p -> live p b = true -> blk s b = sb_new ->
  R max [] [] (set_free_s s (b :: free_s s)) (set_live p b false).
Proof.
  intros [Rp Rm Rqn Rq Ru Ri Ro Rl Rfn Rf Rn Rs Rr] Lb Eb.
  constructor; cbn [remaining nalloc free_i nblk blk free_s al mem disk used ncall live vw own simu set_live set_free_s]; auto.
  - intros c. cbn. unfold upd. destruct (Nat.eqb_spec c b) as [->|n].
    + split; [discriminate|]. intros (_ & K). tauto.
    + rewrite Rl. intuition.
  - constructor; [|assumption]. apply Rl in Lb. tauto.
  - intros c [->|Hc]; [apply Rl; assumption|auto].
  - intros c. unfold upd. destruct (Nat.eqb_spec c b) as [->|n]; [auto|]. apply Rn.
  - intros c. unfold upd. destruct (Nat.eqb_spec c b) as [->|n]; [discriminate|]. apply Rr.
Qed.

Lemma free_ok max s p b pick dflt : R max [] [] s p -> legal p (Free b) ->
  exists s1, do pick dflt s (Free b) = Ok (s1, RNone) /\ R max [] [] s1 (after p (Free b) RNone).
Proof.
  intros H (Lb & Hr & Hv). cbn [do after]. unfold free_block.
  destruct (simu p) eqn:Ep.
  - pose proof (live_lt _ _ _ _ _ _ H Lb) as Hlt. unfold deinitialize. rewrite Hlt. cbn [negb].
    rewrite (R_simu _ _ _ _ _ H) in Ep. destruct (al s) as [|k m|] eqn:Ea; try discriminate.
    cbn [bind]. eexists. split; [reflexivity|].
    apply R_free_block; [eapply R_sim_step; eassumption|assumption|].
    cbn [blk set_al]. specialize (Hv eq_refl).
    pose proof (R_rel _ _ _ _ _ H b Lb) as Br. unfold brel in Br. destruct Br as (Er & Br).
    destruct (blk s b) as [ex it dr r0]. cbn in *.
    destruct it as [i|]; [destruct Br as (Br & _); destruct (Br Hr); congruence|].
    destruct Br as (_ & -> & Br). rewrite Hv in Br. destruct ex; [discriminate|].
    rewrite Er, Hr. reflexivity.
  - rewrite (R_simu _ _ _ _ _ H) in Ep.
    destruct (deinit_core _ _ _ _ H Lb Ep Hr) as (s1 & E & H1 & Eb & _ & _).
    rewrite E. cbn [bind]. eexists. split; [reflexivity|].
    pose proof (R_free_block _ _ _ _ H1 Lb Eb) as H2.
    eapply R_ext; [exact H2|..]; try reflexivity.
    intros c. cbn. unfold upd. destruct (c =? b); reflexivity.
Qed.

(** ** flush *)

Section Ops.
Variable pick : nat -> list nat -> nat.
Variable dflt : option Z.
Hypothesis Fresh : fresh_blocks pick.

Lemma clean_detach s b : is_evictable (blk s b) = true ->
  bind (clean pick s b) (fun s1 => bind (detach pick s1 b) (fun '(s2, i) => Ok (return_free s2 i)))
  = bind (detach pick s b) (fun '(s2, i) => Ok (return_free s2 i)).
Proof.
  intros Ev.
  replace (detach pick s b) with (bind (clean pick s b) (fun s1 =>
    match int (blk s1 b) with
    | Some i => Ok (set_b s1 b (mkSb (ext (blk s1 b)) None (dirty (blk s1 b)) (rc (blk s1 b))), i)
    | None => Undefined
    end)) by (unfold detach; rewrite Ev; reflexivity).
  destruct (evictable_inv _ Ev) as (Er & i & Ei).
  assert (K : forall s1, clean pick s b = Ok s1 -> is_evictable (blk s1 b) = true /\ dirty (blk s1 b) = false).
  { intros s1. unfold clean. destruct (dirty (blk s b)) eqn:Ed; cbn [negb].
    - rewrite Ei. destruct (ext (blk s b)) as [e|]; cbn; intros K; injection K as <-; cbn;
        rewrite upd_same; unfold is_evictable, is_acquired, is_internal; cbn; rewrite Er; auto.
    - intros K. injection K as <-. auto. }
  destruct (clean pick s b) as [s1| |] eqn:E; [|reflexivity|reflexivity]. cbn [bind].
  destruct (K s1 eq_refl) as (K1 & K2).
  unfold detach. rewrite K1. cbn [negb]. unfold clean. rewrite K2. cbn [negb bind]. rewrite ?K2. reflexivity.
Qed.

Lemma flush_ok max n s p : R max [] [] s p -> length (evictables (al s)) <= n ->
  exists s1, flush pick n s = Ok s1 /\ R max [] [] s1 p /\ evictables (al s1) = [] /\
    is_sim (al s1) = is_sim (al s).
Proof.
  revert s. induction n as [|n IH]; intros s H Hn.
  - cbn. destruct (pop_evictable (al s)) as [(b, a)|] eqn:Ep.
    + destruct (pop_evictables _ _ _ Ep) as (E & _). rewrite E in Hn. cbn in Hn. lia.
    + exists s. apply pop_none in Ep. auto.
  - cbn [flush]. destruct (pop_evictable (al s)) as [(b, a)|] eqn:Ep.
    + destruct (R_pop _ _ _ _ _ _ H Ep) as (H1 & Ev & _ & Lb).
      destruct (pop_evictables _ _ _ Ep) as (E & Es). rewrite E in Hn. cbn in Hn.
      assert (Ev' : is_evictable (blk (set_al s a) b) = true) by exact Ev.
      pose proof (clean_detach _ _ Ev') as Q.
      destruct (detach_ok pick Fresh _ _ _ _ _ H1 Lb Ev) as (s2 & i & e & Ed & _ & H2 & _ & Ea & _).
      rewrite Ed in Q. cbn [bind] in Q.
      assert (Q' : bind (clean pick (set_al s a) b) (fun s1 =>
        bind (detach pick s1 b) (fun '(s2, i) => flush pick n (return_free s2 i))) = flush pick n (return_free s2 i)).
      { destruct (clean pick (set_al s a) b) as [s1| |]; cbn [bind] in *; [|discriminate|discriminate].
        destruct (detach pick s1 b) as [(s3, j)| |]; cbn [bind] in *; [|discriminate|discriminate].
        revert Q. generalize (return_free s3 j), (return_free s2 i). intros u w Q. injection Q as ->. reflexivity. }
      rewrite Q'. destruct (IH (return_free s2 i)) as (s3 & F & H3 & E3 & S3).
      * apply R_return. exact H2.
      * cbn. rewrite Ea. cbn. lia.
      * exists s3. rewrite S3. cbn. rewrite Ea. cbn. auto.
    + exists s. apply pop_none in Ep. auto.
Qed.

(** ** Switching *)

Lemma to_lfd_evictables (g : nat -> Z) l : forall q, NoDup (map snd q) ->
  let r := fold_left (fun q b => pq_insert q b (g b)) l q in
  NoDup (map snd r) /\ forall c, In c (map snd r) <-> In c l \/ In c (map snd q).
Proof.
  induction l as [|b l IH]; intros q N; cbn [fold_left].
  - split; [assumption|]. intros c. cbn. tauto.
  - destruct (IH (pq_insert q b (g b)) (pq_insert_nodup _ _ _ N)) as (I1 & I2).
    split; [exact I1|]. intros c. rewrite I2, pq_insert_spec. cbn. intuition.
Qed.

Lemma access_ok max s p b : R max [] [] s p -> live p b = true -> simu p = false -> 1 <= refs (vw p b) ->
  exists i, access s b = Ok i /\ int (blk s b) = Some i.
Proof.
  intros H Lb Ep Hr. pose proof (live_lt _ _ _ _ _ _ H Lb) as Hlt.
  unfold access. rewrite Hlt. cbn [negb]. rewrite (R_simu _ _ _ _ _ H) in Ep. rewrite (Ncase _ Ep).
  pose proof (R_rel _ _ _ _ _ H b Lb) as Br. unfold brel in Br. destruct Br as (Er & Br).
  assert (Ea : is_acquired (blk s b) = true) by (apply acquired_rc; lia). rewrite Ea. cbn [negb].
  destruct (int (blk s b)); [eauto|lia].
Qed.

Lemma disk_brel m (d d' : nat -> Z) B v : (forall e, ext B = Some e -> d' e = d e) -> brel m d B v -> brel m d' B v.
Proof.
  intros E. unfold brel. destruct (ext B) as [e|]; cbn; [|exact (fun x => x)].
  rewrite (E e eq_refl). exact (fun x => x).
Qed.

Lemma do_ok max s p o : R max [] [] s p -> legal p o ->
  (exists s1 r, do pick dflt s o = Ok (s1, r) /\ allowed dflt p o r /\ R max [] [] s1 (after p o r)) \/
  (exists b un, o = Acq b un /\ do pick dflt s o = NoMemory /\ simu p = false /\ int (blk s b) = None /\
     free_i s = [] /\ remaining s = 0 /\ evictables (al s) = []).
Proof.
  intros H L. destruct o.
  - destruct (acquire_ok pick dflt Fresh max s p b un H L) as [A|A]; [left; exact A|right; eauto 10].
  - left. destruct (release_ok pick dflt max s p b d H L) as (s1 & E & H1).
    exists s1, RNone. split; [assumption|]. split; [reflexivity|assumption].
  - left. destruct (deinit_ok pick dflt max s p b H L) as (s1 & E & H1).
    exists s1, RNone. split; [assumption|]. split; [reflexivity|assumption].
  - left. destruct (init_ok pick dflt max s p b e H L) as (s1 & E & H1).
    exists s1, RNone. split; [assumption|]. split; [reflexivity|assumption].
  - left. exact (extract_ok pick dflt Fresh max s p b H L).
  - left. destruct (isinit_ok max s p b pick dflt H L) as (r & E & A).
    exists s, r. split; [assumption|]. split; assumption.
  - left. apply alloc_ok. assumption.
  - left. destruct (free_ok max s p b pick dflt H L) as (s1 & E & H1).
    exists s1, RNone. split; [assumption|]. split; [reflexivity|assumption].
  - left. cbn [do after allowed].
    destruct (flush_ok max _ s p H (le_n _)) as (s1 & E & H1 & _). rewrite E. cbn. eauto.
  - left. cbn [do after allowed]. eexists. eexists. split; [reflexivity|]. split; [reflexivity|].
    destruct (al s) eqn:Ea; try assumption. eapply R_sim_step; eassumption.
  - left. cbn [do after allowed]. eexists. eexists. split; [reflexivity|]. split; [reflexivity|].
    unfold to_lru. apply R_al; cbn; auto; [|reflexivity]. apply (R_qnd _ _ _ _ _ H).
  - left. cbn [do after allowed]. eexists. eexists. split; [reflexivity|]. split; [reflexivity|].
    unfold to_sim. apply R_al; cbn; auto.
    + apply NoDup_rev. apply (R_qnd _ _ _ _ _ H).
    + intros c. rewrite <- in_rev. reflexivity.
  - left. cbn [do after allowed]. eexists. eexists. split; [reflexivity|]. split; [reflexivity|].
    unfold to_lfd. destruct (lfd_scan ps) as [f nu].
    destruct (to_lfd_evictables (fun b => priority (blk s b) (f b)) (evictables (al s)) [] (NoDup_nil _)) as (I1 & I2).
    apply R_al; auto. intros c. cbn [evictables]. rewrite I2. cbn. tauto.
  - left. destruct L as (Lb & Ep & Hr). destruct (access_ok _ _ _ _ H Lb Ep Hr) as (i & E & Ei).
    cbn [do after allowed]. rewrite E. cbn [bind]. eexists. eexists. split; [reflexivity|]. split; [reflexivity|].
    pose proof (R_rel _ _ _ _ _ H b Lb) as Br. unfold brel in Br. destruct Br as (Er & Br). rewrite Ei in Br.
    destruct Br as (_ & Br). destruct (Br Hr) as (_ & B1 & B2 & B3 & _).
    eapply R_ext with (p := set_vw p b (mkV (val (vw p b)) (refs (vw p b)) d (drt (vw p b)) true)).
    + refine (R_upd max [] [] s p b H Lb [] [] (blk s b) (upd (mem s) i d) (disk s) (used s) (al s) (own p) _ (ncall s)
                _ (R_qnd _ _ _ _ _ H) _ eq_refl _ _ _ _ _ _); cbn [int ext]; auto.
      * intros c. rewrite (R_q _ _ _ _ _ H c). unfold upd. destruct (Nat.eqb_spec c b) as [->|]; reflexivity.
      * intros j K _. rewrite Ei in K. rewrite upd_other; [reflexivity|]. intros ->. apply K. left. reflexivity.
      * apply (R_used _ _ _ _ _ H).
      * intros c e n He. destruct (R_used _ _ _ _ _ H c e He). repeat split; auto.
        intros K. apply n. eapply (R_inj _ _ _ _ _ H); eassumption.
      * apply (R_own _ _ _ _ _ H).
      * unfold brel. rewrite Ei. cbn [rc int dirty ext refs val work drt mdf]. rewrite upd_same.
        split; [assumption|]. split; [lia|]. intros _. split; [reflexivity|]. split; [assumption|]. split; [assumption|].
        split; [assumption|]. discriminate.
    + reflexivity.
    + reflexivity.
    + reflexivity.
    + reflexivity.
    + intros c. cbn. unfold upd. destruct (Nat.eqb_spec c b) as [->|]; reflexivity.
    + reflexivity.
    + reflexivity.
    + reflexivity.
    + reflexivity.
    + reflexivity.
    + reflexivity.
    + reflexivity.
    + reflexivity.
    + reflexivity.
  - left. destruct L as (Lb & Ep & Hr). destruct (access_ok _ _ _ _ H Lb Ep Hr) as (i & E & Ei).
    cbn [do after allowed]. rewrite E. cbn [bind]. eexists. eexists. split; [reflexivity|]. split; [|assumption].
    pose proof (R_rel _ _ _ _ _ H b Lb) as Br. unfold brel in Br. destruct Br as (Er & Br). rewrite Ei in Br.
    destruct Br as (_ & Br). destruct (Br Hr) as (-> & _). reflexivity.
  - left. cbn [do after allowed new_ext]. eexists. eexists. split; [reflexivity|].
    pose proof (Fresh (ncall s) (used s)) as F. set (e := pick (ncall s) (used s)) in *. clearbody e.
    destruct H as [Rp Rm Rqn Rq Ru Ri Ro Rl Rfn Rf Rn Rs Rr].
    split.
    { exists e. split; [reflexivity|]. destruct (own p e) eqn:Eo; [|reflexivity]. destruct (Ro _ _ Eo). tauto. }
    constructor; cbn [remaining nalloc free_i nblk blk free_s al mem disk used ncall live vw own simu set_own set_disk]; auto.
    + intros b e' He. destruct (Ru b e' He). split; [right; assumption|].
      rewrite upd_other; [assumption|]. intros ->. tauto.
    + intros e' x. unfold upd. destruct (Nat.eqb_spec e' e) as [->|n].
      * intros K. injection K as <-. split; [left|]; reflexivity.
      * intros K. destruct (Ro _ _ K). split; [right|]; assumption.
    + intros b Lb. eapply disk_brel; [|apply Rr; assumption].
      intros e' He. rewrite upd_other; [reflexivity|]. intros ->. destruct (Ru b e He). tauto.
  - left. cbn in L. cbn [do after allowed]. eexists. eexists. split; [reflexivity|]. split; [reflexivity|].
    destruct H as [Rp Rm Rqn Rq Ru Ri Ro Rl Rfn Rf Rn Rs Rr].
    constructor; cbn [remaining nalloc free_i nblk blk free_s al mem disk used ncall live vw own simu set_own set_disk]; auto.
    + intros b e' He. destruct (Ru b e' He). split; [assumption|].
      rewrite upd_other; [assumption|]. intros ->. tauto.
    + intros e' x. unfold upd. destruct (Nat.eqb_spec e' e) as [->|n].
      * intros K. injection K as <-. split; [|reflexivity].
        destruct (own p e) eqn:Eo; [|tauto]. destruct (Ro _ _ Eo). assumption.
      * intros K. apply Ro. assumption.
    + intros b Lb. eapply disk_brel; [|apply Rr; assumption].
      intros e' He. rewrite upd_other; [reflexivity|]. intros ->. destruct (Ru b e He). tauto.
  - left. cbn in L. cbn [do after allowed]. eexists. eexists. split; [reflexivity|]. split; [|assumption].
    destruct (own p e) eqn:Eo; [|tauto]. destruct (R_own _ _ _ _ _ H _ _ Eo) as (_ & <-). eauto.
  - left. cbn in L. cbn [do after allowed]. eexists. eexists. split; [reflexivity|]. split; [reflexivity|].
    destruct H as [Rp Rm Rqn Rq Ru Ri Ro Rl Rfn Rf Rn Rs Rr].
    constructor; cbn [remaining nalloc free_i nblk blk free_s al mem disk used ncall live vw own simu set_own del_ext set_used]; auto.
    + intros b e' He. destruct (Ru b e' He) as (U1 & U2). split.
      * apply remove_spec. split; [assumption|]. intros ->. tauto.
      * unfold upd. destruct (e' =? e); [reflexivity|assumption].
    + intros e' x. unfold upd. destruct (Nat.eqb_spec e' e) as [->|n]; [discriminate|].
      intros K. destruct (Ro _ _ K). split; [apply remove_spec; split|]; assumption.
Qed.

Lemma R_start max m d : R max [] [] (start max m d) c0.
Proof.
  constructor; cbn; auto; try (intros; discriminate); try constructor; try contradiction; try tauto; try lia.
Qed.

Lemma run_R max ops : forall s p s1 rs, R max [] [] s p -> run pick dflt s ops = Ok (s1, rs) ->
  legal_run p (combine ops rs) ->
  R max [] [] s1 (after_all p (combine ops rs)) /\ agrees dflt p (combine ops rs) /\ length rs = length ops.
Proof.
  induction ops as [|o ops IH]; cbn [run]; intros s p s1 rs H E L.
  - injection E as <- <-. cbn. auto.
  - destruct (do pick dflt s o) as [(s2, x)| |] eqn:Ed; [|discriminate|discriminate]. cbn [bind] in E.
    destruct (run pick dflt s2 ops) as [(s3, xs)| |] eqn:Er; [|discriminate|discriminate]. cbn [bind] in E.
    injection E as <- <-. cbn [combine legal_run agrees after_all length] in *. destruct L as (L & Lr).
    destruct (do_ok _ _ _ _ H L) as [(s2' & r & E & A & H2)|(b & un & -> & E & _)]; [|congruence].
    rewrite Ed in E. injection E as <- <-.
    destruct (IH _ _ _ _ H2 Er Lr) as (I1 & I2 & I3). auto.
Qed.

End Ops.
