(** External blocks: what the block scheduler has in use belongs to a swappable
    block or to the client. *)
From Coq Require Import ZArith List Bool Lia Permutation Arith.
From Verif Require Import BsModel BsSpec BsProofs BsProofs2 BsProofs3 BsProofs4.
Import ListNotations.

(** New external blocks belong to swappable blocks, which keep theirs. *)
Definition gr (s s' : st) : Prop :=
  (NoDup (used s) -> NoDup (used s')) /\
  (forall b e, ext (blk s b) = Some e -> ext (blk s' b) = Some e) /\
  (forall e, In e (used s') -> In e (used s) \/ exists b, ext (blk s' b) = Some e) /\
  (forall e, In e (used s) -> In e (used s')).

Lemma gr_refl s : gr s s.
Proof. repeat split; auto. Qed.
Lemma gr_trans s s1 s2 : gr s s1 -> gr s1 s2 -> gr s s2.
Proof.
  intros (A1 & A2 & A3 & A4) (B1 & B2 & B3 & B4). repeat split; auto.
  intros e He. destruct (B3 e He) as [K|K]; [|auto]. destruct (A3 e K) as [J|(b & J)]; [auto|right; eauto].
Qed.
Lemma gr_same s s' : (forall b e, ext (blk s b) = Some e -> ext (blk s' b) = Some e) -> used s' = used s -> gr s s'.
Proof. intros H E. unfold gr. rewrite E. auto. Qed.
Lemma gr_set_b s s1 b X : blk s1 = upd (blk s) b X -> used s1 = used s -> (forall e, ext (blk s b) = Some e -> ext X = Some e) -> gr s s1.
Proof.
  intros H E K. apply gr_same; [|assumption]. intros c e He. rewrite H. unfold upd. destruct (Nat.eqb c b) eqn:Ec; [|assumption].
  apply Nat.eqb_eq in Ec. subst c. auto.
Qed.

Lemma no_value_no_ext max s c b : R max [] [] s c -> live c b = true -> refs (vw c b) = 0 -> val (vw c b) = None -> ext (blk s b) = None.
Proof.
  intros H L H0 Hv. destruct (R_rel _ _ _ _ _ H b L) as (_ & K). destruct (int (blk s b)).
  - destruct K as (K & _). destruct (K H0) as (K1 & _). congruence.
  - destruct K as (_ & _ & K). rewrite Hv in K. destruct (ext (blk s b)); [discriminate|reflexivity].
Qed.

Section Space.
Variable pick : nat -> list nat -> nat.
Variable dflt : option Z.
Hypothesis Fresh : fresh_blocks pick.

Lemma gr_clean s b s1 : clean pick s b = Ok s1 -> gr s s1.
Proof.
  unfold clean. destruct (dirty (blk s b)); cbn [negb]; [|intros E; injection E as <-; apply gr_refl].
  destruct (ext (blk s b)) as [e|] eqn:Ee; cbn [new_ext]; (destruct (int (blk s b)) as [i|]; [|discriminate]); intros E; injection E as <-.
  - apply (gr_set_b _ _ b (mkSb (Some e) (Some i) false (rc (blk s b)))); [reflexivity..|]. cbn. congruence.
  - set (e := pick (ncall s) (used s)). unfold gr. cbn. split; [|split; [|split]].
    + intros N. constructor; [apply Fresh|assumption].
    + intros c e' He. unfold upd. destruct (Nat.eqb c b) eqn:Ec; [|assumption]. apply Nat.eqb_eq in Ec. congruence.
    + intros e' [<-|H]; [right|auto]. exists b. rewrite upd_same. reflexivity.
    + auto.
Qed.
Lemma gr_detach s b s1 i : detach pick s b = Ok (s1, i) -> gr s s1.
Proof.
  unfold detach. destruct (is_evictable (blk s b)); [|discriminate]. cbn [negb]. destruct (clean pick s b) as [s2| |] eqn:E; try discriminate. cbn [bind].
  destruct (int (blk s2 b)) as [j|]; [|discriminate]. intros K. injection K as <- <-. eapply gr_trans; [eapply gr_clean; eassumption|].
  eapply gr_set_b; [reflexivity..|auto].
Qed.
Lemma gr_get_free s s1 i : get_free s = Some (s1, i) -> gr s s1.
Proof.
  unfold get_free. destruct (free_i s); [destruct (Nat.ltb 0 (remaining s)); [|discriminate]|]; intros E; injection E as <- <-; apply gr_same; auto.
Qed.
Lemma gr_get_block s s1 i : get_block pick s = Ok (s1, i) -> gr s s1.
Proof.
  unfold get_block. destruct (get_free s) as [[s2 j]|] eqn:E; [intros K; injection K as <- <-; eapply gr_get_free; eassumption|].
  destruct (pop_evictable (al s)) as [[v a]|]; [|discriminate]. intros K. eapply gr_trans; [|eapply gr_detach; eassumption]. apply gr_same; auto.
Qed.
Ltac same_gr := apply gr_same; [intros ?b ?e ?He; cbn; auto|reflexivity].
Lemma gr_acquire s b un s1 i : acquire pick dflt s b un = Ok (s1, i) -> gr s s1.
Proof.
  unfold acquire. destruct (Nat.ltb b (nblk s)); [|discriminate]. cbn [negb].
  assert (G : forall a, al s = a -> is_sim a = false ->
    match int (blk s b) with
    | Some i =>
        Ok (set_b (if negb (is_acquired (blk s b)) then set_al s (erase_evictable (al s) b) else s) b
              (mkSb (ext (blk s b)) (Some i) (dirty (blk s b)) (S (rc (blk s b)))), Some i)
    | None =>
        bind (get_block pick s) (fun '(s1, i) =>
            if sb_initialized (blk s1 b) then
              if un then Ok (set_b s1 b (mkSb (ext (blk s1 b)) (Some i) (dirty (blk s1 b)) (S (rc (blk s1 b)))), Some i)
              else match ext (blk s1 b) with
                   | Some e => Ok (set_mem (set_b s1 b (mkSb (ext (blk s1 b)) (Some i) false (S (rc (blk s1 b)))))
                                           i (disk s1 e), Some i)
                   | None => Undefined
                   end
            else
              Ok (match dflt with
                  | Some d => if un then set_b s1 b (mkSb (ext (blk s1 b)) (Some i) (dirty (blk s1 b)) (S (rc (blk s1 b)))) 
                              else set_mem (set_b s1 b (mkSb (ext (blk s1 b)) (Some i) (dirty (blk s1 b)) (S (rc (blk s1 b))))) i d
                  | None => set_b s1 b (mkSb (ext (blk s1 b)) (Some i) (dirty (blk s1 b)) (S (rc (blk s1 b))))
                  end, Some i))
    end = Ok (s1, i) -> gr s s1).
  { intros a _ _. destruct (int (blk s b)) as [j|].
    - intros E. injection E as <- <-. destruct (is_acquired (blk s b)); cbn [negb]; (eapply gr_set_b; [reflexivity..|auto]).
    - destruct (get_block pick s) as [[s2 j]| |] eqn:E; try discriminate. cbn [bind]. apply gr_get_block in E.
      destruct (sb_initialized (blk s2 b)); [destruct un; [|destruct (ext (blk s2 b)) as [e|] eqn:Ee; [|discriminate]]|]; intros K; injection K as <- <-;
        try (destruct dflt; [destruct un|]); (eapply gr_trans; [exact E|]); (eapply gr_set_b; [reflexivity..|cbn; congruence]). }
  destruct (al s) as [q|k m|q nu] eqn:Ea; [|intros E; injection E as <- <-; same_gr|];
    (eapply G; [reflexivity|reflexivity]).
Qed.
Lemma gr_release_with s b d ins s1 : release_with pick s b d ins = Ok s1 -> gr s s1.
Proof.
  unfold release_with. destruct (is_acquired (blk s b)); [|discriminate]. cbn [negb].
  destruct (is_acquired _); [intros E; injection E as <-; eapply gr_set_b; [reflexivity..|auto]|].
  destruct (dirty _ || is_external _); [intros E; injection E as <-; eapply gr_set_b; [reflexivity..|auto]|].
  destruct (detach pick _ b) as [[s2 i]| |] eqn:E; try discriminate. cbn [bind]. intros K. injection K as <-.
  apply gr_detach in E. eapply gr_trans; [|eapply gr_trans; [exact E|same_gr]]. eapply gr_set_b; [reflexivity..|auto].
Qed.
Lemma gr_release s b d s1 : release pick s b d = Ok s1 -> gr s s1.
Proof.
  unfold release. destruct (Nat.ltb b (nblk s)); [|discriminate]. cbn [negb].
  destruct (al s) as [q|k m|q [|t nu]].
  - apply gr_release_with.
  - intros E. injection E as <-. same_gr.
  - intros E. apply gr_release_with in E. eapply gr_trans; [|exact E]. same_gr.
  - destruct (release_with pick s b d _) as [s2| |] eqn:E; try discriminate. cbn [bind]. apply gr_release_with in E.
    destruct (al s2) as [|k m|q1 [|t1 nu1]]; try discriminate. intros K. injection K as <-. eapply gr_trans; [exact E|same_gr].
Qed.
Lemma gr_flush n : forall s s1, flush pick n s = Ok s1 -> gr s s1.
Proof.
  induction n as [|n IH]; intros s s1; cbn [flush]; (destruct (pop_evictable (al s)) as [[b a]|]; [|intros E; injection E as <-; apply gr_refl]); [discriminate|].
  destruct (clean pick (set_al s a) b) as [s2| |] eqn:E1; try discriminate. cbn [bind]. destruct (detach pick s2 b) as [[s3 i]| |] eqn:E2; try discriminate. cbn [bind].
  intros E3. apply gr_clean in E1. apply gr_detach in E2. apply IH in E3.
  assert (E0 : gr s (set_al s a)) by same_gr. assert (E4 : gr s3 (return_free s3 i)) by same_gr.
  eapply gr_trans; [exact E0|]. eapply gr_trans; [exact E1|]. eapply gr_trans; [exact E2|]. eapply gr_trans; [exact E4|exact E3].
Qed.

(** Everything in use has an owner. *)
Definition exact (s : st) (c : client) : Prop :=
  NoDup (used s) /\ forall e, In e (used s) -> own c e <> None \/ exists b, ext (blk s b) = Some e.

Lemma exact_gr s s1 c c1 : gr s s1 -> (forall e, own c e <> None -> own c1 e <> None) -> exact s c -> exact s1 c1.
Proof.
  intros (A1 & A2 & A3 & A4) H (N & K). split; [auto|]. intros e He. destruct (A3 e He) as [J|J]; [|auto].
  destruct (K e J) as [K1|(b & K1)]; [left; auto|right; eauto].
Qed.

Lemma remove_keeps_NoDup (x : nat) l : NoDup l -> NoDup (remove Nat.eq_dec x l).
Proof.
  induction 1 as [|y l Hy N IH]; cbn; [constructor|]. destruct (Nat.eq_dec x y); [assumption|]. constructor; [|assumption].
  intros K. apply in_remove in K. tauto.
Qed.

(** What deinitialize does to the external blocks. *)
Lemma deinit_ext s b s1 : deinitialize s b = Ok s1 -> is_sim (al s) = false ->
  (forall c, ext (blk s1 c) = if Nat.eqb c b then None else ext (blk s c)) /\
  used s1 = match ext (blk s b) with Some e => remove Nat.eq_dec e (used s) | None => used s end.
Proof.
  intros E Hs. unfold deinitialize in E. destruct (Nat.ltb b (nblk s)); [|discriminate]. cbn [negb] in E.
  assert (G : (if is_acquired (blk s b) then Undefined
      else Ok (match int (blk s b) with
        | Some i => return_free (set_b (match ext (blk s b) with Some e => del_ext (if is_evictable (blk s b) then set_al s (erase_evictable (al s) b) else s) e
               | None => (if is_evictable (blk s b) then set_al s (erase_evictable (al s) b) else s) end) b (mkSb None None false (rc (blk s b)))) i
        | None => set_b (match ext (blk s b) with Some e => del_ext (if is_evictable (blk s b) then set_al s (erase_evictable (al s) b) else s) e
               | None => (if is_evictable (blk s b) then set_al s (erase_evictable (al s) b) else s) end) b (mkSb None None false (rc (blk s b)))
        end)) = Ok s1).
  { destruct (al s); [exact E|discriminate Hs|exact E]. }
  clear E. destruct (is_acquired (blk s b)); [discriminate|]. injection G as <-.
  split.
  - intros c. destruct (int (blk s b)), (ext (blk s b)), (is_evictable (blk s b)); cbn; unfold upd; destruct (Nat.eqb c b); reflexivity.
  - destruct (int (blk s b)), (ext (blk s b)), (is_evictable (blk s b)); reflexivity.
Qed.
Lemma deinit_sim s b s1 : deinitialize s b = Ok s1 -> is_sim (al s) = true -> blk s1 = blk s /\ used s1 = used s.
Proof.
  unfold deinitialize. destruct (Nat.ltb b (nblk s)); [|discriminate]. cbn [negb]. destruct (al s); try discriminate. intros E _. injection E as <-. auto.
Qed.

Lemma exact_removed s b s1 c c1 : (forall y, ext (blk s1 y) = if Nat.eqb y b then None else ext (blk s y)) ->
  used s1 = match ext (blk s b) with Some e => remove Nat.eq_dec e (used s) | None => used s end ->
  (forall e, own c e <> None -> own c1 e <> None) -> exact s c -> exact s1 c1.
Proof.
  intros E1 E2 O (N & K). unfold exact. rewrite E2. destruct (ext (blk s b)) as [x|] eqn:Ex.
  - split; [apply remove_keeps_NoDup; assumption|]. intros e He. apply in_remove in He. destruct He as (He & Hn).
    destruct (K e He) as [J|(d & J)]; [auto|right]. exists d. rewrite E1. destruct (Nat.eqb d b) eqn:Ed; [|assumption].
    apply Nat.eqb_eq in Ed. congruence.
  - split; [assumption|]. intros e He. destruct (K e He) as [J|(d & J)]; [auto|right]. exists d. rewrite E1.
    destruct (Nat.eqb d b) eqn:Ed; [|assumption]. apply Nat.eqb_eq in Ed. congruence.
Qed.
Lemma exact_deinit s b s1 c c1 : deinitialize s b = Ok s1 -> (forall e, own c e <> None -> own c1 e <> None) -> exact s c -> exact s1 c1.
Proof.
  intros E O (N & K). case_eq (is_sim (al s)); intros Hs.
  - destruct (deinit_sim _ _ _ E Hs) as (E1 & E2). apply (exact_gr s s1 c c1); [|assumption|split; assumption]. apply gr_same; [rewrite E1; auto|assumption].
  - destruct (deinit_ext _ _ _ E Hs) as (E1 & E2). eapply exact_removed; [exact E1|exact E2|exact O|split; assumption].
Qed.

Lemma own_set (c : client) e v x : own (set_own c e v) x = if Nat.eqb x e then v else own c x.
Proof. reflexivity. Qed.

Lemma exact_do max s c o s1 r : R max [] [] s c -> legal c o -> do pick dflt s o = Ok (s1, r) -> exact s c -> exact s1 (after c o r).
Proof.
  intros HR L E X. pose proof (do_ok pick dflt Fresh max s c o HR L) as OK. rewrite E in OK.
  destruct OK as [(s1' & r' & Eq & HA & HR1)|(b & un & _ & Eq & _)]; [|discriminate]. injection Eq as <- <-.
  destruct o; cbn [do] in E.
  - destruct (acquire pick dflt s b un) as [[s2 i]| |] eqn:E1; try discriminate. cbn [bind] in E. injection E as <- <-.
    eapply exact_gr; [eapply gr_acquire; eassumption| |exact X]. intros e. cbn [after]. destruct (simu c); [auto|]. destruct i; auto.
  - destruct (release pick s b d) as [s2| |] eqn:E1; try discriminate. cbn [bind] in E. injection E as <- <-.
    eapply exact_gr; [eapply gr_release; eassumption| |exact X]. intros e. cbn [after]. destruct (simu c); auto.
  - destruct (deinitialize s b) as [s2| |] eqn:E1; try discriminate. cbn [bind] in E. injection E as <- <-.
    eapply exact_deinit; [eassumption| |exact X]. intros e. cbn [after]. destruct (simu c); auto.
  - destruct (initialize s b e) as [s2| |] eqn:E1; try discriminate. cbn [bind] in E. injection E as <- <-.
    unfold initialize in E1. destruct (Nat.ltb b (nblk s)); [|discriminate]. cbn [negb] in E1. pose proof (R_simu _ _ _ _ _ HR) as Hs.
    destruct (is_sim (al s)) eqn:Es.
    + assert (E2 : blk s2 = blk s /\ used s2 = used s) by (destruct (al s); try discriminate; injection E1 as <-; auto). destruct E2 as (E2 & E3).
      apply (exact_gr s s2 c); [apply gr_same; [rewrite E2; auto|exact E3]| |exact X]. cbn [after]. rewrite Hs. destruct e; auto.
    + destruct L as (L0 & [L|(L1 & L2 & L3)]); [congruence|].
      assert (E2 : sb_initialized (blk s b) = false /\ s2 = set_b s b (mkSb e (int (blk s b)) (dirty (blk s b)) (rc (blk s b)))).
      { destruct (al s); try discriminate; (destruct (sb_initialized (blk s b)); [discriminate|]; injection E1 as <-; auto). }
      destruct E2 as (E2 & ->). assert (Ee : ext (blk s b) = None).
      { eapply no_value_no_ext; eassumption. }
      destruct X as (N & K). split; [exact N|]. intros x Hx. cbn [used set_b] in Hx. cbn [after]. rewrite Hs.
      destruct (K x Hx) as [J|(d & J)].
      * destruct e as [e|]; [|left; exact J]. rewrite own_set. destruct (Nat.eqb x e) eqn:Exe; [|left; exact J].
        apply Nat.eqb_eq in Exe. subst x. right. exists b. cbn. rewrite upd_same. reflexivity.
      * right. exists d. cbn. rewrite upd_other; [exact J|]. congruence.
  - destruct (extract pick s b) as [[s2 x]| |] eqn:E1; try discriminate. cbn [bind] in E. injection E as <- <-.
    unfold extract in E1. destruct (Nat.ltb b (nblk s)); [|discriminate]. cbn [negb] in E1. pose proof (R_simu _ _ _ _ _ HR) as Hs.
    destruct (is_sim (al s)) eqn:Es.
    + assert (E2 : blk s2 = blk s /\ used s2 = used s) by (destruct (al s); try discriminate; injection E1 as <- <-; auto). destruct E2 as (E2 & E3).
      apply (exact_gr s s2 c); [apply gr_same; [rewrite E2; auto|exact E3]| |exact X]. cbn [after]. rewrite Hs. auto.
    + assert (E2 : exists s3, gr s s3 /\ s2 = set_b s3 b (mkSb None (int (blk s3 b)) (dirty (blk s3 b)) (rc (blk s3 b))) /\ x = ext (blk s3 b)).
      { assert (G : forall a, bind (if is_internal (blk s b) then bind (detach pick (if is_evictable (blk s b) then set_al s a else s) b) (fun '(s2, i) => Ok (return_free s2 i))
              else Ok (if is_evictable (blk s b) then set_al s a else s))
            (fun s2 => Ok (set_b s2 b (mkSb None (int (blk s2 b)) (dirty (blk s2 b)) (rc (blk s2 b))), ext (blk s2 b))) = Ok (s2, x) ->
            exists s3, gr s s3 /\ s2 = set_b s3 b (mkSb None (int (blk s3 b)) (dirty (blk s3 b)) (rc (blk s3 b))) /\ x = ext (blk s3 b)).
        { intros a. assert (G0 : gr s (if is_evictable (blk s b) then set_al s a else s)) by (destruct (is_evictable (blk s b)); [same_gr|apply gr_refl]).
          destruct (is_internal (blk s b)).
          - case_eq (detach pick (if is_evictable (blk s b) then set_al s a else s) b); [intros [s3 i] Ed|intros Ed; discriminate|intros Ed; discriminate]. cbn [bind]. intros Eq.
            injection Eq as <- <-. exists (return_free s3 i).
            split; [|auto]. eapply gr_trans; [exact G0|]. eapply gr_trans; [eapply gr_detach; exact Ed|same_gr].
          - cbn [bind]. intros Eq. injection Eq as <- <-. exists (if is_evictable (blk s b) then set_al s a else s). auto. }
        destruct (al s); try discriminate; eapply G; exact E1. }
      destruct E2 as (s3 & G & -> & ->). destruct (exact_gr s s3 c c G (fun e H => H) X) as (N & K).
      split; [exact N|]. intros e He. cbn [used set_b] in He. cbn [after]. rewrite Hs.
      cbn [allowed] in HA. destruct HA as [HA|HA]; [congruence|].
      destruct (ext (blk s3 b)) as [y|] eqn:Ey.
      * destruct (val (vw c b)) as [w|] eqn:Ew; [|discriminate HA].
        destruct (K e He) as [J|(d & J)].
        -- left. rewrite own_set. destruct (Nat.eqb e y); [discriminate|exact J].
        -- destruct (Nat.eq_dec d b) as [->|n].
           ++ left. rewrite own_set. replace e with y by congruence. rewrite Nat.eqb_refl. discriminate.
           ++ right. exists d. cbn. rewrite upd_other by assumption. exact J.
      * destruct (K e He) as [J|(d & J)]; [left; exact J|]. right. exists d. cbn. rewrite upd_other by congruence. exact J.
  - destruct (is_initialized s b); try discriminate. cbn [bind] in E. injection E as <- <-. exact X.
  - unfold allocate in E. destruct (free_s s) as [|x l] eqn:Ef; injection E as <- <-.
    + apply (exact_gr s _ c); [|auto|exact X]. apply (gr_set_b s _ (nblk s) sb_new); [reflexivity..|]. intros e He.
      assert (Hl : live c (nblk s) = false).
      { destruct (live c (nblk s)) eqn:El; [|reflexivity]. apply (R_live _ _ _ _ _ HR) in El. lia. }
      destruct (R_new _ _ _ _ _ HR _ Hl) as (H1 & _). rewrite H1 in He. discriminate.
    + apply (exact_gr s _ c); [same_gr| |exact X]. intros y Hy. exact Hy.
  - unfold free_block in E. destruct (deinitialize s b) as [s2| |] eqn:E1; try discriminate. cbn [bind] in E. injection E as <- <-.
    eapply exact_gr; [| |eapply exact_deinit; [eassumption| |exact X]]; [same_gr|intros e He; exact He|]. intros e He. exact He.
  - destruct (flush pick _ s) as [s2| |] eqn:E1; try discriminate. cbn [bind] in E. injection E as <- <-. eapply exact_gr; [eapply gr_flush; eassumption| |exact X]. auto.
  - injection E as <- <-. apply (exact_gr s _ c); [|auto|exact X]. destruct (al s); same_gr.
  - injection E as <- <-. apply (exact_gr s _ c); [|auto|exact X]. same_gr.
  - injection E as <- <-. apply (exact_gr s _ c); [|auto|exact X]. same_gr.
  - injection E as <- <-. apply (exact_gr s _ c); [|auto|exact X]. unfold to_lfd. destruct (lfd_scan ps). same_gr.
  - destruct (access s b) as [i| |]; try discriminate. cbn [bind] in E. injection E as <- <-. apply (exact_gr s _ c); [|auto|exact X]. same_gr.
  - destruct (access s b) as [i| |]; try discriminate. cbn [bind] in E. injection E as <- <-. exact X.
  - cbn [new_ext] in E. injection E as <- <-. destruct X as (N & K). split; [constructor; [apply Fresh|exact N]|].
    intros e [<-|He]; cbn [after]; rewrite own_set.
    + left. rewrite Nat.eqb_refl. discriminate.
    + destruct (Nat.eqb e _); [left; discriminate|]. exact (K e He).
  - injection E as <- <-. apply (exact_gr s _ c); [same_gr| |exact X]. intros x Hx. cbn [after]. rewrite own_set. destruct (Nat.eqb x e); [discriminate|exact Hx].
  - injection E as <- <-. exact X.
  - injection E as <- <-. destruct X as (N & K). split; [apply remove_keeps_NoDup; exact N|]. intros x Hx. apply in_remove in Hx. destruct Hx as (Hx & Hn).
    cbn [after]. rewrite own_set. apply Nat.eqb_neq in Hn. rewrite Hn. exact (K x Hx).
Qed.

Lemma exact_start max m d : exact (start max m d) c0.
Proof. split; [constructor|]. intros e []. Qed.

Lemma exact_run max ops : forall s c s1 rs, R max [] [] s c -> exact s c -> run pick dflt s ops = Ok (s1, rs) ->
  legal_run c (combine ops rs) -> exact s1 (after_all c (combine ops rs)).
Proof.
  induction ops as [|o ops IH]; intros s c s1 rs HR X E L; cbn [run] in E; [injection E as <- <-; exact X|].
  destruct (do pick dflt s o) as [[s2 r]| |] eqn:E1; try discriminate. cbn [bind] in E.
  destruct (run pick dflt s2 ops) as [[s3 rs2]| |] eqn:E2; try discriminate. cbn [bind] in E. injection E as <- <-.
  cbn [combine legal_run after_all] in *. destruct L as (L1 & L2).
  assert (HR2 : R max [] [] s2 (after c o r)).
  { destruct (do_ok pick dflt Fresh max s c o HR L1) as [(s2' & r' & Eq & _ & K)|(b & un & _ & Eq & _)]; rewrite E1 in Eq; [|discriminate].
    injection Eq as <- <-. exact K. }
  eapply IH; [exact HR2| |exact E2|exact L2]. eapply exact_do; eassumption.
Qed.

End Space.
