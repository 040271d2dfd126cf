(** What is freed by which operation; an algorithm object that is destroyed
    without having been used. *)
From Coq Require Import ZArith List Bool Lia Permutation Arith.
From Verif Require Import BsModel BsSpec BsProofs BsProofs2 BsProofs3 BsProofs4 BsProofs5 BsSpaceProofs BsDtorModel BsDtorProofs.
Import ListNotations.

Section Freed.
Variable pick : nat -> list nat -> nat.
Variable dflt : option Z.
Hypothesis Fresh : fresh_blocks pick.

Lemma gr_in s s1 e : gr s s1 -> In e (used s) -> In e (used s1).
Proof. intros (_ & _ & _ & H). apply H. Qed.

Lemma deinit_freed s b s1 e : deinitialize s b = Ok s1 -> In e (used s) -> In e (used s1) \/ ext (blk s b) = Some e.
Proof.
  intros E He. case_eq (is_sim (al s)); intros Hs.
  - destruct (deinit_sim _ _ _ E Hs) as (_ & ->). auto.
  - destruct (deinit_ext _ _ _ E Hs) as (_ & ->). destruct (ext (blk s b)) as [x|]; [|auto].
    destruct (Nat.eq_dec e x) as [->|n]; [auto|]. left. apply in_in_remove; assumption.
Qed.

Lemma freed_do s o s1 r e : do pick dflt s o = Ok (s1, r) -> In e (used s) ->
  In e (used s1) \/ o = DelExt e \/ exists b, (o = Deinit b \/ o = Free b) /\ ext (blk s b) = Some e.
Proof.
  intros E He. destruct o; cbn [do] in E.
  - destruct (acquire pick dflt s b un) as [[s2 i]| |] eqn:E1; try discriminate. cbn [bind] in E. injection E as <- <-.
    left. eapply gr_in; [eapply gr_acquire; eassumption|assumption].
  - destruct (release pick s b d) as [s2| |] eqn:E1; try discriminate. cbn [bind] in E. injection E as <- <-.
    left. eapply gr_in; [eapply gr_release; eassumption|assumption].
  - destruct (deinitialize s b) as [s2| |] eqn:E1; try discriminate. cbn [bind] in E. injection E as <- <-.
    destruct (deinit_freed _ _ _ e E1 He); eauto 10.
  - destruct (initialize s b e0) as [s2| |] eqn:E1; try discriminate. cbn [bind] in E. injection E as <- <-. left.
    unfold initialize in E1. destruct (Nat.ltb b (nblk s)); [|discriminate]. cbn [negb] in E1.
    destruct (al s); [destruct (sb_initialized _); [discriminate|]| |destruct (sb_initialized _); [discriminate|]]; injection E1 as <-; exact He.
  - destruct (extract pick s b) as [[s2 x]| |] eqn:E1; try discriminate. cbn [bind] in E. injection E as <- <-. left.
    unfold extract in E1. destruct (Nat.ltb b (nblk s)); [|discriminate]. cbn [negb] in E1.
    assert (G : forall a, bind (if is_internal (blk s b) then bind (detach pick (if is_evictable (blk s b) then set_al s a else s) b) (fun '(s2, i) => Ok (return_free s2 i))
              else Ok (if is_evictable (blk s b) then set_al s a else s))
            (fun s2 => Ok (set_b s2 b (mkSb None (int (blk s2 b)) (dirty (blk s2 b)) (rc (blk s2 b))), ext (blk s2 b))) = Ok (s2, x) -> In e (used s2)).
    { intros a. destruct (is_internal (blk s b)).
      - case_eq (detach pick (if is_evictable (blk s b) then set_al s a else s) b); [intros [s3 i] Ed|intros Ed; discriminate|intros Ed; discriminate]. cbn [bind]. intros Eq.
        injection Eq as <- <-. cbn. eapply gr_in; [eapply gr_detach; eassumption|]. destruct (is_evictable (blk s b)); exact He.
      - cbn [bind]. intros Eq. injection Eq as <- <-. cbn. destruct (is_evictable (blk s b)); exact He. }
    destruct (al s); [eapply G; exact E1|injection E1 as <- <-; exact He|eapply G; exact E1].
  - destruct (is_initialized s b); try discriminate. cbn [bind] in E. injection E as <- <-. auto.
  - unfold allocate in E. destruct (free_s s); injection E as <- <-; auto.
  - unfold free_block in E. destruct (deinitialize s b) as [s2| |] eqn:E1; try discriminate. cbn [bind] in E. injection E as <- <-.
    destruct (deinit_freed _ _ _ e E1 He); eauto 10.
  - destruct (flush pick _ s) as [s2| |] eqn:E1; try discriminate. cbn [bind] in E. injection E as <- <-. left. eapply gr_in; [eapply gr_flush; eassumption|assumption].
  - injection E as <- <-. destruct (al s); auto.
  - injection E as <- <-. auto.
  - injection E as <- <-. auto.
  - injection E as <- <-. left. unfold to_lfd. destruct (lfd_scan ps). exact He.
  - destruct (access s b); try discriminate. injection E as <- <-. auto.
  - destruct (access s b); try discriminate. injection E as <- <-. auto.
  - injection E as <- <-. left. right. exact He.
  - injection E as <- <-. auto.
  - injection E as <- <-. auto.
  - injection E as <- <-. destruct (Nat.eq_dec e e0) as [->|n]; [auto|]. left. cbn. apply in_in_remove; assumption.
Qed.
End Freed.

(** ** An unused algorithm *)

(** The view of the client whose evictable blocks lost their values. *)
Definition lost (s : st) (c : client) : client :=
  mkC (live c) (fun b => if is_evictable (blk s b) then v0 else vw c b) (own c) (simu c).

Lemma R_view max s c c1 : R max [] [] s c -> (forall b, live c1 b = live c b) -> (forall b, vw c1 b = vw c b) -> (forall e, own c1 e = own c e) ->
  simu c1 = simu c -> R max [] [] s c1.
Proof.
  intros [H1 H2 H3 H4 H5 H6 H7 H8 H9 H10 H11 H12 H13] E1 E2 E3 E4. constructor; auto.
  - intros b e He. rewrite E3. apply (H5 b e He).
  - intros e d. rewrite E3. apply H7.
  - intros b. rewrite E1. apply H8.
  - intros b. rewrite E1, E2. auto.
  - congruence.
  - intros b. rewrite E1, E2. auto.
Qed.
Lemma R_al max s c c1 a : R max [] [] s c -> evictables a = evictables (al s) -> (forall b, live c1 b = live c b) -> (forall b, vw c1 b = vw c b) -> (forall e, own c1 e = own c e) ->
  simu c1 = is_sim a -> R max [] [] (set_al s a) c1.
Proof.
  intros [H1 H2 H3 H4 H5 H6 H7 H8 H9 H10 H11 H12 H13] Ea E1 E2 E3 E4. constructor; cbn; try rewrite Ea; auto.
  - intros b e He. rewrite E3. apply (H5 b e He).
  - intros e d. rewrite E3. apply H7.
  - intros b. rewrite E1. apply H8.
  - intros b. rewrite E1, E2. auto.
  - intros b. rewrite E1, E2. auto.
Qed.

Lemma sb_deinit_al s a b : sb_deinit (set_al s a) b = bind (sb_deinit s b) (fun '(s1, i) => Ok (set_al s1 a, i)).
Proof.
  unfold sb_deinit. change (blk (set_al s a) b) with (blk s b). destruct (is_acquired (blk s b)); [reflexivity|]. destruct (ext (blk s b)); reflexivity.
Qed.
Lemma drop_al l : forall s a, drop_evictables l (set_al s a) = bind (drop_evictables l s) (fun s1 => Ok (set_al s1 a)).
Proof.
  induction l as [|b l IH]; intros s a; cbn [drop_evictables]; [reflexivity|]. rewrite sb_deinit_al. destruct (sb_deinit s b) as [[s1 i]| |]; cbn [bind]; try reflexivity.
  destruct i as [i|]; [|apply IH]. change (return_free (set_al s1 a) i) with (set_al (return_free s1 i) a). apply IH.
Qed.

Section Unused.
Variable pick : nat -> list nat -> nat.
Variable dflt : option Z.
Hypothesis Fresh : fresh_blocks pick.

Lemma live_evictable max s c b : R max [] [] s c -> is_evictable (blk s b) = true -> live c b = true /\ refs (vw c b) = 0.
Proof.
  intros H Hb. assert (L : live c b = true).
  { destruct (live c b) eqn:El; [reflexivity|]. destruct (R_new _ _ _ _ _ H b El) as (E & _). rewrite E in Hb. discriminate. }
  split; [assumption|]. destruct (R_rel _ _ _ _ _ H b L) as (E & _). rewrite <- E. apply not_acquired_rc, evictable_not_acquired. assumption.
Qed.

Lemma drop_R max l : forall s c, R max [] [] s c -> al s = Lru l -> exists s1, drop_evictables l s = Ok s1 /\ R max [] [] (set_al s1 (Lru [])) (lost s c).
Proof.
  induction l as [|b l IH]; intros s c H Ea; cbn [drop_evictables].
  - exists s. split; [reflexivity|]. apply (R_al max s c); auto.
    + rewrite Ea. reflexivity.
    + intros b. cbn. destruct (is_evictable (blk s b)) eqn:Eb; [|reflexivity]. exfalso.
      assert (K : In b (evictables (al s))).
      { apply (R_q _ _ _ _ _ H). split; [|auto]. destruct (live_evictable _ _ _ _ H Eb) as (L & _). apply (R_live _ _ _ _ _ H). assumption. }
      rewrite Ea in K. contradiction.
    + cbn. rewrite (R_simu _ _ _ _ _ H), Ea. reflexivity.
  - assert (Hb : is_evictable (blk s b) = true).
    { assert (K : In b (evictables (al s))) by (rewrite Ea; left; reflexivity). apply (R_q _ _ _ _ _ H) in K. tauto. }
    destruct (live_evictable _ _ _ _ H Hb) as (L1 & L2). pose proof (R_simu _ _ _ _ _ H) as Hs. rewrite Ea in Hs. cbn in Hs.
    assert (Nd : NoDup (b :: l)) by (pose proof (R_qnd _ _ _ _ _ H) as K; rewrite Ea in K; exact K).
    inversion Nd as [|? ? Nb Nl]; subst.
    destruct (do_ok pick dflt Fresh max s c (Deinit b) H (conj L1 (or_intror L2))) as [(s1 & r & E & _ & R1)|(b' & un & Eq & _)]; [|discriminate].
    cbn [do] in E. destruct (deinitialize s b) as [s1'| |] eqn:E1; try discriminate. cbn [bind] in E. injection E as <- <-.
    pose proof (evictable_not_acquired _ Hb) as Ha. unfold deinitialize in E1. destruct (Nat.ltb b (nblk s)); [|discriminate]. cbn [negb] in E1. rewrite Ea in E1.
    rewrite Hb, Ha in E1. injection E1 as E1.
    assert (Er : (if Nat.eq_dec b b then remove Nat.eq_dec b l else b :: remove Nat.eq_dec b l) = l) by (destruct (Nat.eq_dec b b); [apply notin_remove; assumption|congruence]).
    rewrite Er in E1. unfold sb_deinit. rewrite Ha. cbn [bind].
    match goal with |- context [drop_evictables l ?x] => set (s2 := x) end.
    assert (E2 : s1' = set_al s2 (Lru l)).
    { subst s2. rewrite <- E1. destruct (int (blk s b)), (ext (blk s b)); reflexivity. }
    rewrite E2 in R1. destruct (IH _ _ R1 eq_refl) as (s3 & E3 & R3). rewrite drop_al in E3.
    destruct (drop_evictables l s2) as [s4| |]; try discriminate. cbn [bind] in E3. injection E3 as <-. exists s4. split; [reflexivity|].
    change (set_al (set_al s4 (Lru l)) (Lru [])) with (set_al s4 (Lru [])) in R3. eapply R_view; [exact R3| | | |].
    + intros x. cbn. rewrite Hs. reflexivity.
    + intros x. cbn [lost vw after]. rewrite Hs.
      assert (Eb : forall x, blk (set_al s2 (Lru l)) x = upd (blk s) b (mkSb None None false (rc (blk s b))) x).
      { intros y. subst s2. destruct (int (blk s b)), (ext (blk s b)); reflexivity. }
      rewrite Eb. unfold upd. destruct (Nat.eqb x b) eqn:Ex.
      * apply Nat.eqb_eq in Ex. subst x. rewrite Hb. unfold is_evictable. cbn. rewrite andb_false_r. unfold upd. rewrite Nat.eqb_refl. reflexivity.
      * cbn. unfold upd. rewrite Ex. reflexivity.
    + intros e. cbn. rewrite Hs. reflexivity.
    + cbn [lost simu after]. rewrite Hs. symmetry. exact Hs.
Qed.

Lemma unused_ok max s c : R max [] [] s c -> exists s1, unused_algorithm s = Ok s1 /\ R max [] [] s1 (lost s c).
Proof.
  intros H. unfold unused_algorithm, alg_dtor.
  assert (H1 : R max [] [] (set_al s (Lru (evictables (al s)))) (mkC (live c) (vw c) (own c) false)) by (apply (R_al max s c); auto).
  destruct (drop_R max _ _ _ H1 eq_refl) as (s1 & E & R1). rewrite drop_al in E. destruct (drop_evictables (evictables (al s)) s) as [s2| |] eqn:E2; try discriminate.
  cbn [bind] in E. injection E as <-. cbn [bind]. eexists. split; [reflexivity|].
  assert (Ea : al s2 = al s).
  { destruct (drop_evictables_ok (evictables (al s)) s) as (s3 & E3 & D & _).
    - apply (R_qnd _ _ _ _ _ H).
    - intros b Hb. apply (R_q _ _ _ _ _ H) in Hb. tauto.
    - rewrite E2 in E3. injection E3 as <-. apply D. }
  rewrite Ea.
  match type of R1 with R _ _ _ ?x _ => change (R max [] [] (set_al x (no_evictables (al s))) (lost s c)) end.
  eapply R_al; [exact R1|destruct (al s); reflexivity|reflexivity|reflexivity|reflexivity|].
  cbn. rewrite (R_simu _ _ _ _ _ H). destruct (al s); reflexivity.
Qed.
End Unused.
