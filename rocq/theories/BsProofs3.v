(** Every operation of the block scheduler keeps the relation to the view of the
    client (second part). *)
From Coq Require Import ZArith List Bool Lia Permutation Arith.
From Verif Require Import BsModel BsSpec BsProofs BsProofs2.
Import ListNotations.

Section Ops.
Variable pick : nat -> list nat -> nat.
Variable dflt : option Z.
Hypothesis Fresh : fresh_blocks pick.

(** ** release *)

Definition released (v : view) (d : bool) : view :=
  if Nat.eqb (refs v) 1
  then mkV (if d || drt v then Some (work v) else val v) 0 (work v) false false
  else mkV (val v) (refs v - 1) (work v) (d || drt v) (mdf v).

Lemma release_with_ok max s p b d ins : R max [] [] s p -> live p b = true -> is_sim (al s) = false ->
  1 <= refs (vw p b) ->
  (refs (vw p b) = 1 -> d = true \/ drt (vw p b) = true \/ mdf (vw p b) = false \/ val (vw p b) = None) ->
  (forall s1, NoDup (evictables (ins s1)) /\ is_sim (ins s1) = false /\
     forall c, In c (evictables (ins s1)) <-> c = b \/ In c (evictables (al s))) ->
  exists s1, release_with pick s b d ins = Ok s1 /\
    R max [] [] s1 (set_vw p b (released (vw p b) d)) /\
    (al s1 = al s \/ exists s', al s1 = ins s').
Proof.
  intros H Lb Es Hr Hl Hins.
  pose proof (R_rel _ _ _ _ _ H b Lb) as Br. unfold brel in Br. destruct Br as (Er & Br).
  destruct (int (blk s b)) as [i|] eqn:Ei; [|lia].
  destruct Br as (_ & Br). destruct (Br Hr) as (Bm & Bd & Bv & Bx & Bn). clear Br.
  unfold release_with.
  assert (Ea : is_acquired (blk s b) = true) by (apply acquired_rc; lia). rewrite Ea. cbn [negb].
  assert (Nev : is_evictable (blk s b) = false) by (unfold is_evictable; rewrite Ea; reflexivity).
  set (B1 := mkSb (ext (blk s b)) (int (blk s b)) (d || dirty (blk s b)) (rc (blk s b) - 1)).
  destruct (is_acquired B1) eqn:Ea1.
  - apply acquired_rc in Ea1. cbn in Ea1. eexists. split; [reflexivity|]. split; [|left; reflexivity].
    refine (R_upd max [] [] s p b H Lb [] [] B1 (mem s) (disk s) (used s) (al s) (own p) _ (ncall s)
                _ (R_qnd _ _ _ _ _ H) _ eq_refl _ _ _ _ _ _); cbn [int ext B1]; auto.
    + intros c. rewrite (R_q _ _ _ _ _ H c). destruct (Nat.eq_dec c b) as [->|n].
      * rewrite upd_same, Nev. unfold is_evictable.
        assert (E : is_acquired B1 = true) by (apply acquired_rc; exact Ea1). rewrite E.
        cbn. intuition.
      * rewrite upd_other by assumption. reflexivity.
    + intros e He. exact (R_used _ _ _ _ _ H b e He).
    + intros c e n He. destruct (R_used _ _ _ _ _ H c e He). repeat split; auto.
      intros K. apply n. eapply (R_inj _ _ _ _ _ H); eassumption.
    + apply (R_own _ _ _ _ _ H).
    + unfold brel, released, B1. cbn [rc int dirty ext]. rewrite Ei, Er.
      destruct (Nat.eqb_spec (refs (vw p b)) 1); [lia|]. cbn [rc int dirty ext refs val work drt mdf].
      split; [reflexivity|]. split; [lia|]. intros _. split; [assumption|].
      split; [destruct d; cbn; auto|]. split; [destruct d; cbn; auto|].
      split; [destruct d; cbn; [discriminate|auto]|]. assumption.
  - apply acquired_false in Ea1. cbn in Ea1.
    assert (E1 : refs (vw p b) = 1) by lia. specialize (Hl E1).
    assert (Eb : rc (blk s b) - 1 = 0) by lia.
    destruct (dirty B1 || is_external B1) eqn:Ede.
    + eexists. split; [reflexivity|]. split; [|right; eexists; reflexivity].
      destruct (Hins (set_b s b B1)) as (I1 & I2 & I3).
      refine (R_upd max [] [] s p b H Lb [] [] B1 (mem s) (disk s) (used s) _ (own p) _ (ncall s)
                _ I1 _ _ _ _ _ _ _ _); cbn [int ext B1]; auto.
      * intros c. rewrite I3, (R_q _ _ _ _ _ H c). destruct (Nat.eq_dec c b) as [->|n].
        -- rewrite upd_same. unfold is_evictable, is_internal.
           assert (E : is_acquired B1 = false) by (apply acquired_false; exact Ea1). rewrite E.
           cbn. rewrite Ei. split; [|auto]. intros _. split; [|auto].
           apply (R_live _ _ _ _ _ H). assumption.
        -- rewrite upd_other by assumption. split; [intros [E|K]; [congruence|exact K]|auto].
      * congruence.
      * intros e He. exact (R_used _ _ _ _ _ H b e He).
      * intros c e n He. destruct (R_used _ _ _ _ _ H c e He). repeat split; auto.
        intros K. apply n. eapply (R_inj _ _ _ _ _ H); eassumption.
      * apply (R_own _ _ _ _ _ H).
      * unfold brel, released, B1. cbn [rc int dirty ext]. rewrite Ei, E1, Eb.
        cbn [Nat.eqb refs val work drt mdf]. split; [reflexivity|]. split; [|lia]. intros _.
        rewrite Bm. destruct (d || drt (vw p b)) eqn:Edd.
        -- split; [reflexivity|]. intros K. exfalso. apply orb_prop in Edd.
           destruct Edd as [->|Edd]; [discriminate|]. rewrite (Bd Edd) in K. destruct d; discriminate.
        -- apply orb_false_elim in Edd. destruct Edd as (-> & Edr). cbn [orb] in *.
           destruct Hl as [|[|Hl]]; [discriminate|congruence|].
           assert (Vn : val (vw p b) <> None).
           { destruct (dirty (blk s b)) eqn:Edb.
             - destruct (Bv eq_refl); [congruence|assumption].
             - rewrite (Bx eq_refl). unfold is_external, has_external in Ede. cbn in Ede.
               destruct (ext (blk s b)); discriminate. }
           destruct Hl as [Hl|Hl]; [|congruence].
           split; [apply Bn; assumption|]. intros K. apply Bx. exact K.
    + apply orb_false_elim in Ede. destruct Ede as (Ed1 & Ee1). cbn in Ed1.
      apply orb_false_elim in Ed1. destruct Ed1 as (Ed0 & Ed1). subst d.
      unfold is_external, has_external in Ee1. cbn in Ee1. rewrite Ed1 in Ee1. cbn in Ee1.
      rewrite andb_true_r in Ee1.
      destruct (ext (blk s b)) as [e|] eqn:Ee; [discriminate|]. clear Ee1.
      unfold detach. cbn [blk set_b]. rewrite upd_same.
      assert (Ev1 : is_evictable B1 = true).
      { unfold is_evictable, is_internal. assert (E : is_acquired B1 = false) by (apply acquired_false; exact Ea1).
        rewrite E. cbn. rewrite Ei. reflexivity. }
      rewrite Ev1. cbn [negb]. unfold clean. cbn [blk set_b]. rewrite upd_same.
      replace (dirty B1) with false by (unfold B1; cbn; congruence). cbn [negb bind blk set_b].
      rewrite upd_same. unfold B1 at 1. cbn [int]. rewrite Ei. cbn [bind].
      eexists. split; [reflexivity|]. split; [|left; reflexivity].
      apply R_return.
      eapply R_ext with (p := set_vw p b (released (vw p b) false)).
      * refine (R_upd max [] [] s p b H Lb [i] [] (mkSb None None false 0) (mem s) (disk s) (used s) (al s) (own p) _ (ncall s)
                _ (R_qnd _ _ _ _ _ H) _ eq_refl _ _ _ _ _ _); cbn [int ext B1]; auto.
        -- rewrite Ei. reflexivity.
        -- intros c. rewrite (R_q _ _ _ _ _ H c). destruct (Nat.eq_dec c b) as [->|n].
           ++ rewrite upd_same, Nev. cbn. intuition.
           ++ rewrite upd_other by assumption. reflexivity.
        -- intros e He. discriminate.
        -- intros c e n He. destruct (R_used _ _ _ _ _ H c e He). repeat split; auto. discriminate.
        -- apply (R_own _ _ _ _ _ H).
        -- unfold brel, released. cbn [rc int dirty ext option_map orb]. rewrite E1. cbn [Nat.eqb refs val work drt mdf].
           destruct (drt (vw p b)) eqn:Edr; [rewrite (Bd eq_refl) in Ed1; discriminate|].
           specialize (Bx Ed1). cbn in Bx. repeat split; auto.
      * reflexivity.
      * reflexivity.
      * reflexivity.
      * reflexivity.
      * intros c. cbn. unfold upd. destruct (c =? b); [|reflexivity].
        unfold B1. cbn. rewrite ?Ee, ?Ed1, ?Eb. reflexivity.
      * reflexivity.
      * reflexivity.
      * reflexivity.
      * reflexivity.
      * reflexivity.
      * reflexivity.
      * reflexivity.
      * reflexivity.
      * reflexivity.
Qed.

Lemma release_ok max s p b d : R max [] [] s p -> legal p (Rel b d) ->
  exists s1, do pick dflt s (Rel b d) = Ok (s1, RNone) /\ R max [] [] s1 (after p (Rel b d) RNone).
Proof.
  intros H (Lb & Hl). pose proof (live_lt _ _ _ _ _ _ H Lb) as Hlt.
  cbn [do after]. unfold release. rewrite Hlt. cbn [negb].
  destruct (simu p) eqn:Ep.
  { rewrite (R_simu _ _ _ _ _ H) in Ep. destruct (al s) as [|k m|] eqn:Ea; try discriminate.
    cbn [bind]. eexists. split; [reflexivity|]. eapply R_sim_step; eassumption. }
  destruct Hl as [Hl|(Hr & Hl)]; [discriminate|].
  pose proof (R_qnd _ _ _ _ _ H) as N.
  rewrite (R_simu _ _ _ _ _ H) in Ep.
  destruct (al s) as [q|k m|q nu] eqn:Ea; [| discriminate|].
  - destruct (release_with_ok max s p b d (fun _ => Lru (lru_insert q b)) H Lb) as (s1 & E & H1 & _); auto.
    + rewrite Ea. reflexivity.
    + intros _. cbn. rewrite Ea. split; [apply lru_insert_nodup; exact N|]. split; [reflexivity|].
      intros c. apply lru_insert_spec.
    + rewrite E. cbn. eauto.
  - destruct nu as [|t nu].
    + assert (H' : R max [] [] (set_al s (Lru (map snd q))) p).
      { apply R_al_same; auto; rewrite Ea; cbn; auto; reflexivity. }
      destruct (release_with_ok max _ p b d (fun _ => Lru (lru_insert (map snd q) b)) H' Lb) as (s1 & E & H1 & _); auto.
      * intros _. cbn. split; [apply lru_insert_nodup; exact N|]. split; [reflexivity|].
        intros c. apply lru_insert_spec.
      * rewrite E. cbn. eauto.
    + destruct (release_with_ok max s p b d
        (fun s1 => Lfd (pq_insert q b (priority (blk s1 b) t)) (t :: nu)) H Lb) as (s1 & E & H1 & A); auto.
      * rewrite Ea. reflexivity.
      * intros s1. cbn [evictables is_sim]. rewrite Ea. split; [apply pq_insert_nodup; exact N|].
        split; [reflexivity|]. intros c. apply pq_insert_spec.
      * rewrite E. cbn [bind].
        assert (A' : exists q1, al s1 = Lfd q1 (t :: nu)).
        { destruct A as [A|(s' & A)]; rewrite A, ?Ea; eauto. }
        destruct A' as (q1 & A'). rewrite A'. cbn. eexists. split; [reflexivity|].
        apply R_al_same; auto; rewrite ?A'; cbn; auto; try reflexivity.
        pose proof (R_qnd _ _ _ _ _ H1) as N1. rewrite A' in N1. exact N1.
Qed.

(** ** deinitialize, initialize, extract *)

Lemma Ncase (a : alg) : is_sim a = false -> forall (X : Type) (f1 : list nat -> simst -> X) (g : X),
     match a with Sim k m => f1 k m | _ => g end = g.
Proof. intros E X f1 g. destruct a; try discriminate; reflexivity. Qed.

Lemma deinit_core max s p b : R max [] [] s p -> live p b = true -> is_sim (al s) = false ->
  refs (vw p b) = 0 ->
  exists s1, deinitialize s b = Ok s1 /\ R max [] [] s1 (set_vw p b v0) /\ blk s1 b = sb_new /\
    nblk s1 = nblk s /\ free_s s1 = free_s s.
Proof.
  intros H Lb Es Hr. pose proof (live_lt _ _ _ _ _ _ H Lb) as Hlt.
  unfold deinitialize. rewrite Hlt. cbn [negb]. rewrite (Ncase _ Es).
  pose proof (R_rel _ _ _ _ _ H b Lb) as Br. unfold brel in Br. destruct Br as (Er & _).
  assert (Ea : is_acquired (blk s b) = false) by (apply acquired_false; lia). rewrite Ea.
  rewrite Er, Hr.
  set (a' := if is_evictable (blk s b) then erase_evictable (al s) b else al s).
  set (u' := match ext (blk s b) with Some e => remove Nat.eq_dec e (used s) | None => used s end).
  assert (Est : set_b (match ext (blk s b) with
                       | Some e => del_ext (if is_evictable (blk s b) then set_al s (erase_evictable (al s) b) else s) e
                       | None => if is_evictable (blk s b) then set_al s (erase_evictable (al s) b) else s end)
                  b (mkSb None None false 0)
          = mkSt (remaining s) (nalloc s) (free_i s) (nblk s) (upd (blk s) b sb_new) (free_s s) a' (mem s) (disk s) u' (ncall s)).
  { unfold a', u'. destruct (ext (blk s b)), (is_evictable (blk s b)); reflexivity. }
  cbv zeta. rewrite Est. clear Est.
  assert (Qa : NoDup (evictables a') /\ is_sim a' = is_sim (al s) /\
         forall c, In c (evictables a') <-> In c (evictables (al s)) /\ c <> b).
  { pose proof (R_qnd _ _ _ _ _ H) as N. unfold a'.
    destruct (is_evictable (blk s b)) eqn:Eq.
    - split; [apply erase_nodup; assumption|]. split; [apply erase_sim|].
      intros c. apply erase_spec. assumption.
    - split; [assumption|]. split; [reflexivity|]. intros c. split; [|tauto].
      intros Hc. split; [assumption|]. intros ->.
      apply (R_q _ _ _ _ _ H) in Hc. destruct Hc as (_ & Hc & _). congruence. }
  destruct Qa as (Qa1 & Qa2 & Qa3).
  assert (M : R max (opt (int (blk s b))) []
     (mkSt (remaining s) (nalloc s) (free_i s) (nblk s) (upd (blk s) b sb_new) (free_s s) a' (mem s) (disk s) u' (ncall s))
     (set_vw p b v0)).
  { refine (R_upd max [] [] s p b H Lb _ [] sb_new (mem s) (disk s) u' a' (own p) v0 (ncall s)
                _ Qa1 _ Qa2 _ _ _ _ _ _); cbn [int ext sb_new]; auto.
    - rewrite app_nil_r. reflexivity.
    - intros c. rewrite Qa3, (R_q _ _ _ _ _ H c). destruct (Nat.eq_dec c b) as [->|n].
      + rewrite upd_same. cbn. intuition discriminate.
      + rewrite upd_other by assumption. intuition.
    - discriminate.
    - intros c e n He. destruct (R_used _ _ _ _ _ H c e He) as (U1 & U2). split; [|split; [assumption|discriminate]].
      unfold u'. destruct (ext (blk s b)) as [e'|] eqn:Ee; [|assumption].
      apply remove_spec. split; [assumption|]. intros ->. apply n.
      eapply (R_inj _ _ _ _ _ H); eassumption.
    - intros e x Ho. destruct (R_own _ _ _ _ _ H e x Ho) as (O1 & O2). split; [|assumption].
      unfold u'. destruct (ext (blk s b)) as [e'|] eqn:Ee; [|assumption].
      apply remove_spec. split; [assumption|]. intros ->.
      destruct (R_used _ _ _ _ _ H b e' Ee). congruence.
    - unfold brel. cbn. auto. }
  destruct (int (blk s b)) as [i|]; cbn [opt] in M.
  - eexists. split; [reflexivity|]. split; [apply R_return; exact M|]. cbn. rewrite upd_same. auto.
  - eexists. split; [reflexivity|]. split; [exact M|]. cbn. rewrite upd_same. auto.
Qed.

Lemma deinit_ok max s p b : R max [] [] s p -> legal p (Deinit b) ->
  exists s1, do pick dflt s (Deinit b) = Ok (s1, RNone) /\ R max [] [] s1 (after p (Deinit b) RNone).
Proof.
  intros H (Lb & Hl). cbn [do after]. destruct (simu p) eqn:Ep.
  - pose proof (live_lt _ _ _ _ _ _ H Lb) as Hlt. unfold deinitialize. rewrite Hlt. cbn [negb].
    rewrite (R_simu _ _ _ _ _ H) in Ep. destruct (al s) as [|k m|] eqn:Ea; try discriminate.
    cbn [bind]. eexists. split; [reflexivity|]. eapply R_sim_step; eassumption.
  - destruct Hl as [Hl|Hl]; [discriminate|]. rewrite (R_simu _ _ _ _ _ H) in Ep.
    destruct (deinit_core _ _ _ _ H Lb Ep Hl) as (s1 & E & H1 & _). rewrite E. cbn. eauto.
Qed.

Lemma init_ok max s p b e : R max [] [] s p -> legal p (Init b e) ->
  exists s1, do pick dflt s (Init b e) = Ok (s1, RNone) /\ R max [] [] s1 (after p (Init b e) RNone).
Proof.
  intros H (Lb & Hl). pose proof (live_lt _ _ _ _ _ _ H Lb) as Hlt.
  cbn [do after]. unfold initialize. rewrite Hlt. cbn [negb].
  destruct (simu p) eqn:Ep.
  { rewrite (R_simu _ _ _ _ _ H) in Ep. destruct (al s) as [|k m|] eqn:Ea; try discriminate.
    cbn [bind]. eexists. split; [reflexivity|]. destruct e; eapply R_sim_step; eassumption. }
  destruct Hl as [Hl|(Hr & Hv & Ho)]; [discriminate|].
  rewrite (R_simu _ _ _ _ _ H) in Ep. rewrite (Ncase _ Ep).
  pose proof (R_rel _ _ _ _ _ H b Lb) as Br. unfold brel in Br. destruct Br as (Er & Br).
  destruct (int (blk s b)) as [i|] eqn:Ei.
  { destruct Br as (Br & _). destruct (Br Hr). congruence. }
  destruct Br as (_ & Ed & Ev). rewrite Hv in Ev.
  assert (Ee : ext (blk s b) = None) by (destruct (ext (blk s b)); [discriminate|reflexivity]).
  unfold sb_initialized, is_internal, is_external, has_external. rewrite Ei, Ee. cbn [orb andb].
  cbn [bind]. rewrite Ed, Er, Hr.
  assert (Nev : is_evictable (blk s b) = false)
    by (unfold is_evictable, is_internal; rewrite Ei; apply andb_false_r).
  destruct e as [e|].
  - eexists. split; [reflexivity|].
    destruct (own p e) as [x|] eqn:Eo; [|congruence].
    destruct (R_own _ _ _ _ _ H e x Eo) as (O1 & O2).
    refine (R_upd max [] [] s p b H Lb [] [] _ (mem s) (disk s) (used s) (al s) (upd (own p) e None) _ (ncall s)
                _ (R_qnd _ _ _ _ _ H) _ eq_refl _ _ _ _ _ _); cbn [int ext]; auto.
    + rewrite Ei. reflexivity.
    + intros c. rewrite (R_q _ _ _ _ _ H c). destruct (Nat.eq_dec c b) as [->|n].
      * rewrite upd_same, Nev. cbn. intuition.
      * rewrite upd_other by assumption. reflexivity.
    + intros e' K. injection K as <-. rewrite upd_same. auto.
    + intros c e' n He. destruct (R_used _ _ _ _ _ H c e' He). split; [assumption|]. split.
      * unfold upd. destruct (e' =? e); [reflexivity|assumption].
      * congruence.
    + intros e' x' K. unfold upd in K. destruct (e' =? e); [discriminate|].
      apply (R_own _ _ _ _ _ H). assumption.
    + unfold brel. cbn. rewrite O2. auto.
  - eexists. split; [reflexivity|].
    eapply R_ext; [exact H|..]; try reflexivity.
    intros c. cbn. unfold upd. destruct (Nat.eqb_spec c b) as [->|]; [|reflexivity].
    destruct (blk s b) as [ex it dr r0]. cbn in *. subst. rewrite Hr. reflexivity.
Qed.

Lemma extract_ok max s p b : R max [] [] s p -> legal p (Extract b) ->
  exists s1 r, do pick dflt s (Extract b) = Ok (s1, r) /\ allowed dflt p (Extract b) r /\
    R max [] [] s1 (after p (Extract b) r).
Proof.
  intros H (Lb & Hl). pose proof (live_lt _ _ _ _ _ _ H Lb) as Hlt.
  cbn [do after allowed]. unfold extract. rewrite Hlt. cbn [negb].
  destruct (simu p) eqn:Ep.
  { rewrite (R_simu _ _ _ _ _ H) in Ep. destruct (al s) as [|k m|] eqn:Ea; try discriminate.
    cbn [bind]. eexists. eexists. split; [reflexivity|]. split; [left; reflexivity|].
    eapply R_sim_step; eassumption. }
  destruct Hl as [Hl|Hr]; [discriminate|].
  rewrite (R_simu _ _ _ _ _ H) in Ep. rewrite (Ncase _ Ep).
  (* after detaching, if necessary *)
  assert (D : exists s2, (let B := blk s b in
      let s1 := if is_evictable B then set_al s (erase_evictable (al s) b) else s in
      if is_internal B then bind (detach pick s1 b) (fun '(s2, i) => Ok (return_free s2 i)) else Ok s1)
      = Ok s2 /\ R max [] [] s2 p /\ int (blk s2 b) = None).
  { cbv zeta. destruct (int (blk s b)) as [i|] eqn:Ei.
    - unfold is_internal. rewrite Ei.
      pose proof (R_rel _ _ _ _ _ H b Lb) as Br. unfold brel in Br. destruct Br as (Er & _).
      assert (Ev : is_evictable (blk s b) = true).
      { unfold is_evictable, is_internal. rewrite Ei.
        assert (E : is_acquired (blk s b) = false) by (apply acquired_false; lia). rewrite E. reflexivity. }
      rewrite Ev.
      assert (H' : R max [] [b] (set_al s (erase_evictable (al s) b)) p).
      { pose proof H as [Rp Rm Rqn Rq Ru Ri Ro Rl Rfn Rf Rn Rs Rr]. constructor; auto; cbn.
        - apply erase_nodup. assumption.
        - intros c. rewrite erase_spec by assumption. rewrite Rq. cbn. intuition.
        - rewrite erase_sim. assumption. }
      destruct (detach_ok pick Fresh _ _ _ _ _ H' Lb Ev) as (s2 & j & e & E & _ & H2 & Eb & _).
      rewrite E. cbn [bind]. eexists. split; [reflexivity|]. split; [apply R_return; exact H2|].
      cbn. rewrite Eb, upd_same. reflexivity.
    - unfold is_internal. rewrite Ei.
      assert (Ev : is_evictable (blk s b) = false)
        by (unfold is_evictable, is_internal; rewrite Ei; apply andb_false_r).
      rewrite Ev. eauto. }
  destruct D as (s2 & E & H2 & Ei). cbv zeta in E |- *. rewrite E. cbn [bind].
  pose proof (R_rel _ _ _ _ _ H2 b Lb) as Br. unfold brel in Br. rewrite Ei in Br.
  destruct Br as (Er & _ & Ed & Ev).
  assert (Nev : is_evictable (blk s2 b) = false)
    by (unfold is_evictable, is_internal; rewrite Ei; apply andb_false_r).
  eexists. eexists. split; [reflexivity|].
  destruct (ext (blk s2 b)) as [e|] eqn:Ee.
  - cbn in Ev. rewrite Ev. destruct (R_used _ _ _ _ _ H2 b e Ee) as (U1 & U2). split; [right; eauto|].
    refine (R_upd max [] [] s2 p b H2 Lb [] [] _ (mem s2) (disk s2) (used s2) (al s2)
              (upd (own p) e (Some (disk s2 e))) v0 (ncall s2)
              _ (R_qnd _ _ _ _ _ H2) _ eq_refl _ _ _ _ _ _); cbn [int ext]; auto.
    + intros c. rewrite (R_q _ _ _ _ _ H2 c). destruct (Nat.eq_dec c b) as [->|n].
      * rewrite upd_same, Nev. unfold is_evictable, is_internal. cbn. rewrite Ei, andb_false_r. reflexivity.
      * rewrite upd_other by assumption. reflexivity.
    + discriminate.
    + intros c e' n He. destruct (R_used _ _ _ _ _ H2 c e' He). split; [assumption|]. split; [|discriminate].
      rewrite upd_other; [assumption|]. intros ->. apply n. eapply (R_inj _ _ _ _ _ H2); eassumption.
    + intros e' x K. destruct (Nat.eq_dec e' e) as [->|n].
      * rewrite upd_same in K. injection K as <-. auto.
      * rewrite upd_other in K by assumption. apply (R_own _ _ _ _ _ H2). assumption.
    + unfold brel. cbn. rewrite Ei, Ed, Er, Hr. auto.
  - cbn in Ev. rewrite Ev. split; [right; reflexivity|].
    eapply R_ext; [exact H2|..]; try reflexivity.
    intros c. cbn. unfold upd. destruct (Nat.eqb_spec c b) as [->|]; [|reflexivity].
    destruct (blk s2 b) as [ex it dr r0]. cbn in *. subst. reflexivity.
Qed.

End Ops.
